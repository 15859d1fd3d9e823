(** Proofs about Euler angles. *)
From Coq Require Import List Arith Bool ZArith Reals Lra Lia.
From Verif Require Import Base GeoSpec GeoModel GeoProofs GeoProofs2 EulSpec EulModel.
Import ListNotations.
Local Open Scope R_scope.

(** ** the polar form of a point, and a function that meets the contract *)
Definition atan2_R (y x : R) : R := if Req_EM_T (x * x + y * y) 0 then 0 else let a := acos (x / sqrt (x * x + y * y)) in if Rlt_dec y 0 then - a else a.
Lemma polar_sqrt r th : 0 < r -> sqrt (r * cos th * (r * cos th) + r * sin th * (r * sin th)) = r.
Proof. intros H. replace (_ + _) with (r * r * (cos th * cos th + sin th * sin th)) by ring. rewrite sc1, Rmult_1_r. apply sqrt_square. lra. Qed.
Lemma atan2_R_ok : atan2_contract atan2_R.
Proof.
  split.
  - intros r th Hr T. unfold atan2_R. pose proof (polar_sqrt r th Hr) as P. destruct (Req_EM_T _ 0) as [E|_]; [rewrite E, sqrt_0 in P; lra|]. rewrite P. replace (r * cos th / r) with (cos th) by (field; lra). cbv zeta.
    destruct (Rlt_dec (r * sin th) 0) as [S|S]; destruct (Rlt_dec th 0) as [C|C].
    + rewrite <- (cos_neg th), acos_cos by lra. lra.
    + exfalso. assert (0 <= sin th) by (apply sin_ge_0; lra). assert (0 <= r * sin th) by (apply Rmult_le_pos; lra). lra.
    + exfalso. apply S. assert (0 < sin (- th)) by (apply sin_gt_0; lra). rewrite sin_neg in *. assert (0 < r * - sin th) by (apply Rmult_lt_0_compat; lra). lra.
    + apply acos_cos. lra.
  - unfold atan2_R. destruct (Req_EM_T _ 0) as [_|E]; [reflexivity|exfalso; apply E; ring].
Qed.
Lemma polar_form x y : x * x + y * y <> 0 -> exists th, - PI < th <= PI /\ x = sqrt (x * x + y * y) * cos th /\ y = sqrt (x * x + y * y) * sin th.
Proof.
  intros N. assert (P : 0 < x * x + y * y) by (pose proof (Rle_0_sqr x); pose proof (Rle_0_sqr y); unfold Rsqr in *; lra). set (r := sqrt (x * x + y * y)). assert (R0 : 0 < r) by (apply sqrt_lt_R0, P). assert (Rr : r * r = x * x + y * y) by (apply sqrt_sqrt; lra).
  destruct (half_angle x y r R0 Rr) as (C & S). pose proof (acos_bound (x / r)) as B. exists (0.5 * copysign (2 * acos (x / r)) y). split; [|rewrite C, S; split; field; lra]. rewrite copysign_cases in * by lra. destruct (Rlt_dec y 0) as [Y|Y]; [|pose proof PI_RGT_0; lra].
  split; [|lra]. assert (acos (x / r) <> PI); [|lra]. intros E. replace (0.5 * - (2 * acos (x / r))) with (- acos (x / r)) in S by lra. rewrite E, sin_neg, sin_PI in S. assert (y = 0) by (replace y with (y / r * r) by (field; lra); rewrite <- S; ring). lra.
Qed.

(** ** single rotations *)
Lemma quat_x a : quat_from_x_angle a = quat_from_axis_angle e_x a.
Proof. unfold quat_from_x_angle, quat_from_axis_angle. qt; ring. Qed.
Lemma quat_y a : quat_from_y_angle a = quat_from_axis_angle e_y a.
Proof. unfold quat_from_y_angle, quat_from_axis_angle. qt; ring. Qed.
Lemma quat_z a : quat_from_z_angle a = quat_from_axis_angle e_z a.
Proof. unfold quat_from_z_angle, quat_from_axis_angle. qt; ring. Qed.
Lemma unit_e : unit_vec e_x /\ unit_vec e_y /\ unit_vec e_z.
Proof. unfold unit_vec. geo. repeat split; ring. Qed.
Lemma about_e eu : angle_about eu e_x = vx eu /\ angle_about eu e_y = vy eu /\ angle_about eu e_z = vz eu.
Proof. unfold angle_about. geo. repeat split; ring. Qed.
Lemma euler_unfold eu o : exists a b c, quat_from_euler eu o = qmul (qmul (quat_from_axis_angle (axis_first o) a) (quat_from_axis_angle (axis_middle o) b)) (quat_from_axis_angle (axis_last o) c) /\
  a = angle_about eu (axis_first o) /\ b = angle_about eu (axis_middle o) /\ c = angle_about eu (axis_last o).
Proof.
  destruct (about_e eu) as (X & Y & Z). destruct o; cbn [quat_from_euler axis_first axis_middle axis_last]; unfold quat_from_euler_xyz, quat_from_euler_xzy, quat_from_euler_yxz, quat_from_euler_yzx, quat_from_euler_zxy, quat_from_euler_zyx; rewrite quat_x, quat_y, quat_z, X, Y, Z; eauto 10.
Qed.
Lemma unit_axes o : unit_vec (axis_first o) /\ unit_vec (axis_middle o) /\ unit_vec (axis_last o).
Proof. destruct unit_e as (X & Y & Z). destruct o; cbn; auto. Qed.
Lemma euler_assembled eu o v : unit_quat (quat_from_euler eu o) /\ qrot (quat_from_euler eu o) v = turned o eu v.
Proof.
  destruct (euler_unfold eu o) as (a & b & c & E & Ha & Hb & Hc). destruct (unit_axes o) as (U1 & U2 & U3). assert (A := unit_axis_angle _ a U1). assert (B := unit_axis_angle _ b U2). assert (C := unit_axis_angle _ c U3). rewrite E. split; [repeat apply unit_mul; assumption|].
  rewrite qrot_mul, qrot_mul by (try apply unit_mul; assumption). unfold turned. rewrite <- Ha, <- Hb, <- Hc. rewrite <- !(fun ax an u H => proj2 (axis_angle_assembled ax an u H)) by assumption. reflexivity.
Qed.

(** ** the matrix of a unit quaternion *)
Lemma entries q : unit_quat q -> let w := qw q in let x := qx q in let y := qy q in let z := qz q in
  qrot q e_x = Vec3 (w * w + x * x - y * y - z * z) (2 * (x * y + w * z)) (2 * (x * z - w * y)) /\
  qrot q e_y = Vec3 (2 * (x * y - w * z)) (w * w - x * x + y * y - z * z) (2 * (y * z + w * x)) /\
  qrot q e_z = Vec3 (2 * (x * z + w * y)) (2 * (y * z - w * x)) (w * w - x * x - y * y + z * z).
Proof. intros U. cbv zeta. rewrite !qrot_unit by exact U. unfold sandwich. repeat split; vec; ring. Qed.
Lemma rot_x t v : rotated e_x t v = Vec3 (vx v) (cos t * vy v - sin t * vz v) (sin t * vy v + cos t * vz v).
Proof. unfold rotated. vec; ring. Qed.
Lemma rot_y t v : rotated e_y t v = Vec3 (cos t * vx v + sin t * vz v) (vy v) (cos t * vz v - sin t * vx v).
Proof. unfold rotated. vec; ring. Qed.
Lemma rot_z t v : rotated e_z t v = Vec3 (cos t * vx v - sin t * vy v) (sin t * vx v + cos t * vy v) (vz v).
Proof. unfold rotated. vec; ring. Qed.
(** what the angles of an order make of the axes *)
Lemma turned_axes eu : let a := vx eu in let b := vy eu in let c := vz eu in
  (turned XYZ eu e_z = Vec3 (sin b) (- (sin a * cos b)) (cos a * cos b) /\ vx (turned XYZ eu e_x) = cos b * cos c /\ vx (turned XYZ eu e_y) = - (cos b * sin c)) /\
  (turned XZY eu e_y = Vec3 (- sin c) (cos a * cos c) (sin a * cos c) /\ vx (turned XZY eu e_x) = cos c * cos b /\ vx (turned XZY eu e_z) = cos c * sin b) /\
  (turned YXZ eu e_z = Vec3 (sin b * cos a) (- sin a) (cos b * cos a) /\ vy (turned YXZ eu e_x) = cos a * sin c /\ vy (turned YXZ eu e_y) = cos a * cos c) /\
  (turned YZX eu e_x = Vec3 (cos b * cos c) (sin c) (- (sin b * cos c)) /\ vy (turned YZX eu e_y) = cos c * cos a /\ vy (turned YZX eu e_z) = - (cos c * sin a)) /\
  (turned ZXY eu e_y = Vec3 (- (sin c * cos a)) (cos c * cos a) (sin a) /\ vz (turned ZXY eu e_x) = - (cos a * sin b) /\ vz (turned ZXY eu e_z) = cos a * cos b) /\
  (turned ZYX eu e_x = Vec3 (cos c * cos b) (sin c * cos b) (- sin b) /\ vz (turned ZYX eu e_y) = cos b * sin a /\ vz (turned ZYX eu e_z) = cos b * cos a).
Proof.
  cbv zeta. destruct (about_e eu) as (X & Y & Z). destruct eu as [a b c]. cbn [vx vy vz] in *. unfold turned. cbn [axis_first axis_middle axis_last]. rewrite X, Y, Z. rewrite !rot_x, !rot_y, !rot_z. unfold e_x, e_y, e_z. cbn [vx vy vz]. repeat (lazymatch goal with |- _ /\ _ => split end); try (apply vec_eq); cbn [vx vy vz]; ring.
Qed.

Lemma conj_rows q u v : unit_quat q -> dot (qrot (conjugate q) u) v = dot u (qrot q v).
Proof. intros U. rewrite <- (qrot_dot q _ v U). f_equal. apply conj_rot', U. Qed.
Lemma dot_e v : dot v e_x = vx v /\ dot v e_y = vy v /\ dot v e_z = vz v.
Proof. geo. repeat split; ring. Qed.
(** two rotations that agree on one axis and have the same row for another axis are the same *)
Lemma agree_cross p q u v : unit_quat p -> unit_quat q -> unit_vec u -> unit_vec v -> qrot p v = qrot q v ->
  dot u (qrot p e_x) = dot u (qrot q e_x) -> dot u (qrot p e_y) = dot u (qrot q e_y) -> dot u (qrot p e_z) = dot u (qrot q e_z) ->
  dot u (qrot q v) * dot u (qrot q v) < 1 -> same_up_to_sign p q.
Proof.
  intros Up Uq Uu Uv E X Y Z L. assert (C : qrot (conjugate p) u = qrot (conjugate q) u).
  { destruct (dot_e (qrot (conjugate p) u)) as (P1 & P2 & P3). destruct (dot_e (qrot (conjugate q) u)) as (Q1 & Q2 & Q3). rewrite conj_rows in * by assumption. apply vec_eq; congruence. }
  apply (agree_two p q (qrot (conjugate q) u) v); try assumption; [rewrite <- C at 1; rewrite !conj_rot' by assumption; reflexivity|].
  intros N. assert (D : dot (cross (qrot (conjugate q) u) v) (cross (qrot (conjugate q) u) v) = 0) by (rewrite N; geo; ring). set (w := qrot (conjugate q) u) in *.
  assert (I : dot (cross w v) (cross w v) = dot w w * dot v v - dot w v * dot w v) by (geo; ring). rewrite I in D. assert (W : dot w w = 1) by (unfold w; rewrite qrot_dot by (apply unit_conj, Uq); exact Uu). assert (V : dot w v = dot u (qrot q v)) by (apply conj_rows, Uq). unfold unit_vec in Uv. rewrite W, Uv, V in D. lra.
Qed.
Section Atan.
  Context (atan2 : R -> R -> R) (A2 : atan2_contract atan2).
  Lemma at2 r th y x : 0 < r -> - PI < th <= PI -> y = r * sin th -> x = r * cos th -> atan2 y x = th.
  Proof. intros R0 T -> ->. apply A2; assumption. Qed.
  Lemma at2_inv k y x : 0 < k -> x * x + y * y = k * k -> y = k * sin (atan2 y x) /\ x = k * cos (atan2 y x) /\ - PI < atan2 y x <= PI.
  Proof.
    intros K E. destruct (polar_form x y) as (th & T & X & Y); [nra|]. rewrite E, sqrt_square in X, Y by lra. rewrite (at2 k th y x) by assumption. auto.
  Qed.
  Lemma at2_dir y x : direction x y (atan2 y x).
  Proof.
    destruct (Req_EM_T (x * x + y * y) 0) as [E|E].
    - assert (x = 0 /\ y = 0) as (-> & ->) by (pose proof (Rle_0_sqr x); pose proof (Rle_0_sqr y); unfold Rsqr in *; split; nra). exists 0. repeat split; try lra.
    - destruct (polar_form x y E) as (th & T & X & Y). assert (K : 0 < sqrt (x * x + y * y)) by (apply sqrt_lt_R0; pose proof (Rle_0_sqr x); pose proof (Rle_0_sqr y); unfold Rsqr in *; lra). exists (sqrt (x * x + y * y)). rewrite (at2 _ th y x K T Y X). split; [lra|]. split; assumption.
  Qed.
  Lemma asin_of s t : - PI / 2 < t < PI / 2 -> s = sin t -> asin s = t.
  Proof. intros T ->. apply asin_sin. lra. Qed.
  Lemma vec_parts u v : u = v -> vx u = vx v /\ vy u = vy v /\ vz u = vz v.
  Proof. intros ->. auto. Qed.

  Lemma round_trip_assembled eu o : - PI < angle_about eu (axis_first o) <= PI -> - PI / 2 < angle_about eu (axis_middle o) < PI / 2 -> - PI < angle_about eu (axis_last o) <= PI ->
    euler_from_quat atan2 (quat_from_euler eu o) o = eu.
  Proof.
    intros R1 R2 R3. assert (T := fun v => proj2 (euler_assembled eu o v)). assert (U := proj1 (euler_assembled eu o origin)). set (q := quat_from_euler eu o) in *. clearbody q. destruct (entries q U) as (X & Y & Z). cbv zeta in X, Y, Z. rewrite T in X, Y, Z. destruct (turned_axes eu) as (T1 & T2 & T3 & T4 & T5 & T6).
    destruct (about_e eu) as (Ax & Ay & Az). assert (Cm : 0 < cos (angle_about eu (axis_middle o))) by (apply cos_gt_0; lra).
    apply vec_parts in X. apply vec_parts in Y. apply vec_parts in Z.
    destruct o; cbn [axis_first axis_middle axis_last euler_from_quat] in *; rewrite ?Ax, ?Ay, ?Az in *; clear T.
    - destruct T1 as (P & P1 & P2). rewrite P in Z. cbn [vx vy vz] in *. unfold euler_xyz_from_quat. destruct eu as [a b c]. cbn [vx vy vz] in *. f_equal; [apply (at2 (cos b))|apply asin_of|apply (at2 (cos b))]; lra.
    - destruct T2 as (P & P1 & P2). rewrite P in Y. cbn [vx vy vz] in *. unfold euler_xzy_from_quat. destruct eu as [a b c]. cbn [vx vy vz] in *. f_equal; [apply (at2 (cos c))|apply (at2 (cos c))|apply asin_of]; lra.
    - destruct T3 as (P & P1 & P2). rewrite P in Z. cbn [vx vy vz] in *. unfold euler_yxz_from_quat. destruct eu as [a b c]. cbn [vx vy vz] in *. f_equal; [apply asin_of|apply (at2 (cos a))|apply (at2 (cos a))]; lra.
    - destruct T4 as (P & P1 & P2). rewrite P in X. cbn [vx vy vz] in *. unfold euler_yzx_from_quat. destruct eu as [a b c]. cbn [vx vy vz] in *. f_equal; [apply (at2 (cos c))|apply (at2 (cos c))|apply asin_of]; lra.
    - destruct T5 as (P & P1 & P2). rewrite P in Y. cbn [vx vy vz] in *. unfold euler_zxy_from_quat. destruct eu as [a b c]. cbn [vx vy vz] in *. f_equal; [apply asin_of|apply (at2 (cos a))|apply (at2 (cos a))]; lra.
    - destruct T6 as (P & P1 & P2). rewrite P in X. cbn [vx vy vz] in *. unfold euler_zyx_from_quat. destruct eu as [a b c]. cbn [vx vy vz] in *. f_equal; [apply (at2 (cos b))|apply asin_of|apply (at2 (cos b))]; lra.
  Qed.
  (** the angles of the matrix entry [m] in the corner, with the rest of its row and column *)
  Lemma asin_corner m : m * m < 1 -> sin (asin m) = m /\ exists k, cos (asin m) = k /\ 0 < k /\ k * k = 1 - m * m.
  Proof.
    intros M. split; [apply sin_asin; nra|]. exists (cos (asin m)). split; [reflexivity|]. rewrite cos_asin by nra. unfold Rsqr. split; [apply sqrt_lt_R0; lra|apply sqrt_sqrt; lra].
  Qed.
  Lemma corner m y1 x1 y2 x2 : m * m < 1 -> x1 * x1 + y1 * y1 = 1 - m * m -> x2 * x2 + y2 * y2 = 1 - m * m ->
    sin (asin m) = m /\ (- PI / 2 < asin m < PI / 2) /\ (y1 = cos (asin m) * sin (atan2 y1 x1) /\ x1 = cos (asin m) * cos (atan2 y1 x1) /\ - PI < atan2 y1 x1 <= PI) /\ (y2 = cos (asin m) * sin (atan2 y2 x2) /\ x2 = cos (asin m) * cos (atan2 y2 x2) /\ - PI < atan2 y2 x2 <= PI).
  Proof.
    intros M E1 E2. destruct (asin_corner m M) as (S & k & C & K & K2). rewrite C. split; [exact S|]. split; [|split; apply at2_inv; try exact K; lra].
    pose proof (asin_bound m) as B. pose proof PI_RGT_0. split.
    - destruct (Req_EM_T (asin m) (- (PI / 2))) as [E|E]; [rewrite E, cos_neg, cos_PI2 in C; lra|lra].
    - destruct (Req_EM_T (asin m) (PI / 2)) as [E|E]; [rewrite E, cos_PI2 in C; lra|lra].
  Qed.
  Lemma dot_first v : dot e_x v = vx v /\ dot e_y v = vy v /\ dot e_z v = vz v.
  Proof. geo. repeat split; ring. Qed.
  Lemma back_assembled q o : unit_quat q -> dot (axis_first o) (qrot q (axis_last o)) * dot (axis_first o) (qrot q (axis_last o)) < 1 ->
    let eu := euler_from_quat atan2 q o in same_up_to_sign (quat_from_euler eu o) q /\ - PI < angle_about eu (axis_first o) <= PI /\ - PI / 2 < angle_about eu (axis_middle o) < PI / 2 /\ - PI < angle_about eu (axis_last o) <= PI.
  Proof.
    intros U L. cbv zeta. assert (T := fun eu v => proj2 (euler_assembled eu o v)). assert (U' := fun eu => proj1 (euler_assembled eu o origin)). destruct (unit_axes o) as (Uf & _ & Ul).
    assert (G := fun eu => agree_cross (quat_from_euler eu o) q (axis_first o) (axis_last o) (U' eu) U Uf Ul).
    assert (F := axes_frame q U). destruct (entries q U) as (X & Y & Z). cbv zeta in X, Y, Z. rewrite X, Y, Z in F. apply frame_facts in F. destruct F as ((C1 & C2 & C3) & _ & (Q1 & Q2 & Q3) & _).
    destruct q as [w x y z]. cbn [qw qx qy qz] in *.
    destruct o; cbn [axis_first axis_middle axis_last] in *.
    - set (eu := euler_from_quat atan2 (Quat w x y z) XYZ). destruct (turned_axes eu) as (T1 & T2 & T3 & T4 & T5 & T6). destruct (about_e eu) as (Ax & Ay & Az). rewrite Ax, Ay, Az. destruct T1 as (P & P1 & P2). clear T2 T3 T4 T5 T6. specialize (G eu). rewrite !T in G.
      rewrite Z in L. destruct (dot_first (qrot (Quat w x y z) e_z)) as (D1 & D2 & D3). rewrite Z in D1, D2, D3. rewrite ?D1, ?D2, ?D3 in L. cbn [vx vy vz] in L.
      destruct (corner (2 * (x * z + w * y)) (- (2) * (y * z - w * x)) (w * w - x * x - y * y + z * z) (- (2) * (x * y - w * z)) (w * w + x * x - y * y - z * z)) as (S & Rb & (A1 & A2' & Ra) & (B1 & B2 & Rc)); [lra|lra|lra|].
      change (atan2 (- (2) * (y * z - w * x)) (w * w - x * x - y * y + z * z)) with (vx eu) in A1, A2', Ra. change (atan2 (- (2) * (x * y - w * z)) (w * w + x * x - y * y - z * z)) with (vz eu) in B1, B2, Rc. change (asin (2 * (x * z + w * y))) with (vy eu) in S, Rb, A1, A2', B1, B2. clearbody eu.
      split; [|repeat split; lra]. apply G; [rewrite P, Z; f_equal; lra|..]; rewrite ?(proj1 (dot_first _)), ?(proj1 (proj2 (dot_first _))), ?(proj2 (proj2 (dot_first _))), ?X, ?Y, ?Z, ?P, ?P1, ?P2; cbn [vx vy vz]; try lra.
    - set (eu := euler_from_quat atan2 (Quat w x y z) XZY). destruct (turned_axes eu) as (T1 & T2 & T3 & T4 & T5 & T6). destruct (about_e eu) as (Ax & Ay & Az). rewrite Ax, Ay, Az. destruct T2 as (P & P1 & P2). clear T1 T3 T4 T5 T6. specialize (G eu). rewrite !T in G.
      rewrite Y in L. destruct (dot_first (qrot (Quat w x y z) e_y)) as (D1 & D2 & D3). rewrite Y in D1, D2, D3. rewrite ?D1, ?D2, ?D3 in L. cbn [vx vy vz] in L.
      destruct (corner (- (2) * (x * y - w * z)) (2 * (y * z + w * x)) (w * w - x * x + y * y - z * z) (2 * (x * z + w * y)) (w * w + x * x - y * y - z * z)) as (S & Rb & (A1 & A2' & Ra) & (B1 & B2 & Rc)); [lra|lra|lra|].
      change (atan2 (2 * (y * z + w * x)) (w * w - x * x + y * y - z * z)) with (vx eu) in A1, A2', Ra. change (atan2 (2 * (x * z + w * y)) (w * w + x * x - y * y - z * z)) with (vy eu) in B1, B2, Rc. change (asin (- (2) * (x * y - w * z))) with (vz eu) in S, Rb, A1, A2', B1, B2. clearbody eu.
      split; [|repeat split; lra]. apply G; [rewrite P, Y; f_equal; lra|..]; rewrite ?(proj1 (dot_first _)), ?(proj1 (proj2 (dot_first _))), ?(proj2 (proj2 (dot_first _))), ?X, ?Y, ?Z, ?P, ?P1, ?P2; cbn [vx vy vz]; try lra.
    - set (eu := euler_from_quat atan2 (Quat w x y z) YXZ). destruct (turned_axes eu) as (T1 & T2 & T3 & T4 & T5 & T6). destruct (about_e eu) as (Ax & Ay & Az). rewrite Ax, Ay, Az. destruct T3 as (P & P1 & P2). clear T1 T2 T4 T5 T6. specialize (G eu). rewrite !T in G.
      rewrite Z in L. destruct (dot_first (qrot (Quat w x y z) e_z)) as (D1 & D2 & D3). rewrite Z in D1, D2, D3. rewrite ?D1, ?D2, ?D3 in L. cbn [vx vy vz] in L.
      destruct (corner (- (2) * (y * z - w * x)) (2 * (x * z + w * y)) (w * w - x * x - y * y + z * z) (2 * (x * y + w * z)) (w * w - x * x + y * y - z * z)) as (S & Rb & (A1 & A2' & Ra) & (B1 & B2 & Rc)); [lra|lra|lra|].
      change (atan2 (2 * (x * z + w * y)) (w * w - x * x - y * y + z * z)) with (vy eu) in A1, A2', Ra. change (atan2 (2 * (x * y + w * z)) (w * w - x * x + y * y - z * z)) with (vz eu) in B1, B2, Rc. change (asin (- (2) * (y * z - w * x))) with (vx eu) in S, Rb, A1, A2', B1, B2. clearbody eu.
      split; [|repeat split; lra]. apply G; [rewrite P, Z; f_equal; lra|..]; rewrite ?(proj1 (dot_first _)), ?(proj1 (proj2 (dot_first _))), ?(proj2 (proj2 (dot_first _))), ?X, ?Y, ?Z, ?P, ?P1, ?P2; cbn [vx vy vz]; try lra.
    - set (eu := euler_from_quat atan2 (Quat w x y z) YZX). destruct (turned_axes eu) as (T1 & T2 & T3 & T4 & T5 & T6). destruct (about_e eu) as (Ax & Ay & Az). rewrite Ax, Ay, Az. destruct T4 as (P & P1 & P2). clear T1 T2 T3 T5 T6. specialize (G eu). rewrite !T in G.
      rewrite X in L. destruct (dot_first (qrot (Quat w x y z) e_x)) as (D1 & D2 & D3). rewrite X in D1, D2, D3. rewrite ?D1, ?D2, ?D3 in L. cbn [vx vy vz] in L.
      destruct (corner (2 * (x * y + w * z)) (- (2) * (x * z - w * y)) (w * w + x * x - y * y - z * z) (- (2) * (y * z - w * x)) (w * w - x * x + y * y - z * z)) as (S & Rb & (A1 & A2' & Ra) & (B1 & B2 & Rc)); [lra|lra|lra|].
      change (atan2 (- (2) * (x * z - w * y)) (w * w + x * x - y * y - z * z)) with (vy eu) in A1, A2', Ra. change (atan2 (- (2) * (y * z - w * x)) (w * w - x * x + y * y - z * z)) with (vx eu) in B1, B2, Rc. change (asin (2 * (x * y + w * z))) with (vz eu) in S, Rb, A1, A2', B1, B2. clearbody eu.
      split; [|repeat split; lra]. apply G; [rewrite P, X; f_equal; lra|..]; rewrite ?(proj1 (dot_first _)), ?(proj1 (proj2 (dot_first _))), ?(proj2 (proj2 (dot_first _))), ?X, ?Y, ?Z, ?P, ?P1, ?P2; cbn [vx vy vz]; try lra.
    - set (eu := euler_from_quat atan2 (Quat w x y z) ZXY). destruct (turned_axes eu) as (T1 & T2 & T3 & T4 & T5 & T6). destruct (about_e eu) as (Ax & Ay & Az). rewrite Ax, Ay, Az. destruct T5 as (P & P1 & P2). clear T1 T2 T3 T4 T6. specialize (G eu). rewrite !T in G.
      rewrite Y in L. destruct (dot_first (qrot (Quat w x y z) e_y)) as (D1 & D2 & D3). rewrite Y in D1, D2, D3. rewrite ?D1, ?D2, ?D3 in L. cbn [vx vy vz] in L.
      destruct (corner (2 * (y * z + w * x)) (- (2) * (x * y - w * z)) (w * w - x * x + y * y - z * z) (- (2) * (x * z - w * y)) (w * w - x * x - y * y + z * z)) as (S & Rb & (A1 & A2' & Ra) & (B1 & B2 & Rc)); [lra|lra|lra|].
      change (atan2 (- (2) * (x * y - w * z)) (w * w - x * x + y * y - z * z)) with (vz eu) in A1, A2', Ra. change (atan2 (- (2) * (x * z - w * y)) (w * w - x * x - y * y + z * z)) with (vy eu) in B1, B2, Rc. change (asin (2 * (y * z + w * x))) with (vx eu) in S, Rb, A1, A2', B1, B2. clearbody eu.
      split; [|repeat split; lra]. apply G; [rewrite P, Y; f_equal; lra|..]; rewrite ?(proj1 (dot_first _)), ?(proj1 (proj2 (dot_first _))), ?(proj2 (proj2 (dot_first _))), ?X, ?Y, ?Z, ?P, ?P1, ?P2; cbn [vx vy vz]; try lra.
    - set (eu := euler_from_quat atan2 (Quat w x y z) ZYX). destruct (turned_axes eu) as (T1 & T2 & T3 & T4 & T5 & T6). destruct (about_e eu) as (Ax & Ay & Az). rewrite Ax, Ay, Az. destruct T6 as (P & P1 & P2). clear T1 T2 T3 T4 T5. specialize (G eu). rewrite !T in G.
      rewrite X in L. destruct (dot_first (qrot (Quat w x y z) e_x)) as (D1 & D2 & D3). rewrite X in D1, D2, D3. rewrite ?D1, ?D2, ?D3 in L. cbn [vx vy vz] in L.
      destruct (corner (- (2) * (x * z - w * y)) (2 * (x * y + w * z)) (w * w + x * x - y * y - z * z) (2 * (y * z + w * x)) (w * w - x * x - y * y + z * z)) as (S & Rb & (A1 & A2' & Ra) & (B1 & B2 & Rc)); [lra|lra|lra|].
      change (atan2 (2 * (x * y + w * z)) (w * w + x * x - y * y - z * z)) with (vz eu) in A1, A2', Ra. change (atan2 (2 * (y * z + w * x)) (w * w - x * x - y * y + z * z)) with (vx eu) in B1, B2, Rc. change (asin (- (2) * (x * z - w * y))) with (vy eu) in S, Rb, A1, A2', B1, B2. clearbody eu.
      split; [|repeat split; lra]. apply G; [rewrite P, X; f_equal; lra|..]; rewrite ?(proj1 (dot_first _)), ?(proj1 (proj2 (dot_first _))), ?(proj2 (proj2 (dot_first _))), ?X, ?Y, ?Z, ?P, ?P1, ?P2; cbn [vx vy vz]; try lra.
  Qed.
End Atan.

(** ** pitch, yaw and roll *)
Section Heading.
  Context (atan2 : R -> R -> R) (A2 : atan2_contract atan2).
  Lemma heading_assembled q : direction (vy (local_y_axis q)) (vz (local_y_axis q)) (pitch atan2 q) /\ direction (vz (local_z_axis q)) (vx (local_z_axis q)) (yaw atan2 q) /\ direction (vx (local_x_axis q)) (vy (local_x_axis q)) (roll atan2 q).
  Proof.
    unfold pitch, yaw, roll, local_x_axis, local_y_axis, local_z_axis. cbn [vx vy vz]. replace (2 * qx q) with (qx q + qx q) by ring. replace (2 * qy q) with (qy q + qy q) by ring. replace (2 * qz q) with (qz q + qz q) by ring. repeat split; apply at2_dir, A2.
  Qed.
  Lemma single_assembled a : - PI < a <= PI -> pitch atan2 (quat_from_x_angle a) = a /\ yaw atan2 (quat_from_y_angle a) = a /\ roll atan2 (quat_from_z_angle a) = a.
  Proof.
    intros T. unfold pitch, yaw, roll, quat_from_x_angle, quat_from_y_angle, quat_from_z_angle. cbv zeta. cbn [qw qx qy qz]. assert (H : a = 2 * (0.5 * a)) by lra. pose proof (sin_2a (0.5 * a)) as S. pose proof (cos_2a_sin (0.5 * a)) as C. rewrite <- H in S, C. repeat split; apply (at2 atan2 A2 1); lra.
  Qed.
  Lemma gimbal_refuted_assembled : exists q, unit_quat q /\ ~ same_up_to_sign (quat_from_euler (euler_from_quat atan2 q XYZ) XYZ) q.
  Proof.
    exists (Quat (1/2) (1/2) (1/2) (1/2)). split; [unfold unit_quat; geo; lra|]. assert (E : euler_from_quat atan2 (Quat (1/2) (1/2) (1/2) (1/2)) XYZ = Vec3 0 (PI / 2) 0).
    { cbn [euler_from_quat]. unfold euler_xyz_from_quat. cbn [qw qx qy qz]. f_equal.
      - replace (- (2) * _) with 0 by lra. replace (1 / 2 * (1 / 2) - 1 / 2 * (1 / 2) - 1 / 2 * (1 / 2) + 1 / 2 * (1 / 2)) with 0 by lra. apply A2.
      - replace (2 * _) with 1 by lra. rewrite <- sin_PI2. apply asin_sin. pose proof PI_RGT_0. lra.
      - replace (- (2) * _) with 0 by lra. replace (1 / 2 * (1 / 2) + 1 / 2 * (1 / 2) - 1 / 2 * (1 / 2) - 1 / 2 * (1 / 2)) with 0 by lra. apply A2. }
    rewrite E. cbn [quat_from_euler]. unfold quat_from_euler_xyz, quat_from_x_angle, quat_from_y_angle, quat_from_z_angle. cbn [vx vy vz]. replace (0.5 * 0) with 0 by lra. rewrite sin_0, cos_0. intros [C|C]; apply (f_equal qx) in C; cbn in C; lra.
  Qed.
End Heading.
Lemma polar_assembled radius inc azi : 0 <= radius -> norm (vec3_from_polar radius inc azi) = radius /\ dot (vec3_from_polar radius inc azi) e_y = radius * cos inc /\ (0 <= inc <= PI -> direction (vz (vec3_from_polar radius inc azi)) (vx (vec3_from_polar radius inc azi)) azi).
Proof.
  intros H. unfold vec3_from_polar. split; [|split; [geo; ring|]].
  - unfold norm, dot. cbn [vx vy vz]. replace (_ + _ + _) with (radius * radius * (cos inc * cos inc + sin inc * sin inc * (cos azi * cos azi + sin azi * sin azi))) by ring. rewrite sc1, Rmult_1_r, sc1, Rmult_1_r. apply sqrt_square, H.
  - intros I. exists (radius * sin inc). cbn [vx vz]. split; [|split; ring]. apply Rmult_le_pos; [exact H|]. apply sin_ge_0; lra.
Qed.
