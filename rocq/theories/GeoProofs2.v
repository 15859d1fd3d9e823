(** Proofs about the conversions between quaternions, axis and angle, and about swing and twist. *)
From Coq Require Import List Arith Bool ZArith Reals Lra Lia.
From Verif Require Import Base GeoSpec GeoModel StatModel GeoProofs.
Import ListNotations.
Local Open Scope R_scope.

Lemma half : 0.5 = / 2.
Proof. lra. Qed.
Lemma sc1 x : cos x * cos x + sin x * sin x = 1.
Proof. pose proof (sin2_cos2 x) as H. unfold Rsqr in H. lra. Qed.
Lemma unit_axis_angle axis ang : unit_vec axis -> unit_quat (quat_from_axis_angle axis ang).
Proof.
  unfold unit_vec, unit_quat, quat_from_axis_angle, dot, qnorm2. cbn [qw qx qy qz]. intros H. set (c := cos (0.5 * ang)). set (s := sin (0.5 * ang)). assert (E : c * c + s * s = 1) by apply sc1.
  transitivity (c * c + s * s * (vx axis * vx axis + vy axis * vy axis + vz axis * vz axis)); [ring|]. rewrite H. lra.
Qed.
Lemma axis_angle_assembled axis ang v : unit_vec axis -> unit_quat (quat_from_axis_angle axis ang) /\ qrot (quat_from_axis_angle axis ang) v = rotated axis ang v.
Proof.
  intros H. split; [apply unit_axis_angle, H|]. unfold rotated. assert (A : ang = 2 * (0.5 * ang)) by lra. rewrite A at 2 3 4. rewrite cos_2a, sin_2a. unfold quat_from_axis_angle. set (c := cos (0.5 * ang)). set (s := sin (0.5 * ang)). assert (E : c * c + s * s = 1) by apply sc1.
  unfold unit_vec in H. assert (K : 1 - (c * c - s * s) = 2 * (s * s)) by lra. rewrite K. assert (K2 : c * c - s * s = 1 - 2 * (s * s)) by lra. rewrite K2. destruct axis as [a b d], v as [x y z]. unfold dot in H. cbn [vx vy vz] in H.
  assert (G : forall l r w, l = r + 2 * (s * s) * w * (1 - (a * a + b * b + d * d)) -> l = r) by (intros l r w ->; rewrite H; ring).
  vec; [apply (G _ _ x)|apply (G _ _ y)|apply (G _ _ z)]; ring.
Qed.
(** the vector part of a unit quaternion has length sin(acos w) *)
Lemma unit_w q : unit_quat q -> -1 <= qw q <= 1.
Proof. unfold unit_quat, qnorm2. intros H. pose proof (Rle_0_sqr (qx q)). pose proof (Rle_0_sqr (qy q)). pose proof (Rle_0_sqr (qz q)). unfold Rsqr in *. split; nra. Qed.
Lemma unit_l q : unit_quat q -> sqrt (qx q * qx q + qy q * qy q + qz q * qz q) = sin (acos (qw q)).
Proof. intros H. rewrite sin_acos by apply (unit_w q H). f_equal. unfold unit_quat, qnorm2, Rsqr in *. lra. Qed.
Section Conv.
  Context (epsilon ample_epsilon : R) (He : 0 < epsilon) (Ha : 0 < ample_epsilon) (Hea : epsilon <= 2 * ample_epsilon).
  Lemma w_below_one q : unit_quat q -> ample_epsilon < sqrt (qx q * qx q + qy q * qy q + qz q * qz q) -> qw q < 1.
  Proof.
    intros U L. destruct (Rlt_dec (qw q) 1) as [C|C]; [exact C|]. pose proof (unit_w q U). assert (W : qw q = 1) by lra. unfold unit_quat, qnorm2 in U. rewrite W in U. replace (qx q * qx q + qy q * qy q + qz q * qz q) with 0 in L by lra. rewrite sqrt_0 in L. lra.
  Qed.
  Lemma quat_axis_angle_assembled q : unit_quat q ->
    (ample_epsilon < norm (Vec3 (qx q) (qy q) (qz q)) -> exists axis ang, axis_angle_from_quat ample_epsilon q = Ok (axis, ang) /\ unit_vec axis /\ 0 < ang <= 2 * PI /\ quat_from_axis_angle axis ang = q) /\
    (norm (Vec3 (qx q) (qy q) (qz q)) <= ample_epsilon -> axis_angle_from_quat ample_epsilon q = Ok (e_x, 0)).
  Proof.
    intros U. unfold axis_angle_from_quat. change (norm (Vec3 (qx q) (qy q) (qz q))) with (sqrt (qx q * qx q + qy q * qy q + qz q * qz q)). set (l := sqrt _) in *. cbv zeta. split; intros L.
    - destruct (Rlt_dec ample_epsilon l) as [_|C]; [|lra]. pose proof (w_below_one q U L) as W. destruct (Rlt_dec (qw q) 1) as [_|C]; [|lra]. unfold div_checked. destruct (Req_EM_T l 0); [lra|]. cbn [obind].
      assert (L2 : l * l = qx q * qx q + qy q * qy q + qz q * qz q) by (apply sqrt_sqrt; pose proof (dot_nonneg (Vec3 (qx q) (qy q) (qz q))) as D; exact D).
      eexists _, _. split; [reflexivity|]. split; [|split].
      + unfold unit_vec, dot. cbn [vx vy vz]. transitivity ((qx q * qx q + qy q * qy q + qz q * qz q) / (l * l)); [field; assumption|]. rewrite <- L2. field. assumption.
      + pose proof (acos_bound (qw q)) as B. split; [|lra]. assert (acos (qw q) <> 0); [|lra]. intros E. pose proof (unit_w q U) as Ww. assert (cos (acos (qw q)) = qw q) by (apply cos_acos, Ww). rewrite E, cos_0 in *. lra.
      + unfold quat_from_axis_angle. cbn [vx vy vz]. replace (0.5 * (2 * acos (qw q))) with (acos (qw q)) by lra. rewrite <- unit_l by exact U. fold l. rewrite cos_acos by apply (unit_w q U). destruct q as [w x y z]. cbn [qw qx qy qz] in *. f_equal; field; assumption.
    - destruct (Rlt_dec ample_epsilon l) as [C|_]; [lra|reflexivity].
  Qed.
  Lemma rotation_vector_assembled q : unit_quat q ->
    (ample_epsilon < norm (Vec3 (qx q) (qy q) (qz q)) -> exists r, rotation_vector_from_quat ample_epsilon q = Ok r /\ 0 < norm r <= 2 * PI /\ quat_from_rotation_vector epsilon r = Ok q) /\
    (norm (Vec3 (qx q) (qy q) (qz q)) <= ample_epsilon -> rotation_vector_from_quat ample_epsilon q = Ok origin).
  Proof.
    intros U. unfold rotation_vector_from_quat. change (norm (Vec3 (qx q) (qy q) (qz q))) with (sqrt (qx q * qx q + qy q * qy q + qz q * qz q)). pose proof (unit_l q U) as UL. set (l := sqrt _) in *. cbv zeta. split; intros L.
    - destruct (Rlt_dec ample_epsilon l) as [_|C]; [|lra]. pose proof (w_below_one q U L) as W. destruct (Rlt_dec (qw q) 1) as [_|C]; [|lra]. unfold div_checked. destruct (Req_EM_T l 0); [lra|]. cbn [obind].
      assert (L2 : l * l = qx q * qx q + qy q * qy q + qz q * qz q) by (apply sqrt_sqrt; pose proof (dot_nonneg (Vec3 (qx q) (qy q) (qz q))) as D; exact D).
      pose proof (acos_bound (qw q)) as B. assert (A0 : acos (qw q) <> 0). { intros E. pose proof (unit_w q U) as Ww. assert (cos (acos (qw q)) = qw q) by (apply cos_acos, Ww). rewrite E, cos_0 in *. lra. }
      assert (Lt : l < acos (qw q)) by (rewrite UL; apply sin_lt_x; lra).
      eexists. split; [reflexivity|]. set (th := 2 * acos (qw q)) in *.
      assert (N : norm (Vec3 (th / l * qx q) (th / l * qy q) (th / l * qz q)) = th).
      { unfold norm, dot. cbn [vx vy vz]. replace (_ + _ + _) with (th * th * ((qx q * qx q + qy q * qy q + qz q * qz q) / (l * l))) by (field; assumption). rewrite <- L2. replace (th * th * (l * l / (l * l))) with (th * th) by (field; assumption). apply sqrt_square. unfold th. lra. }
      split; [rewrite N; unfold th; lra|]. unfold quat_from_rotation_vector. change length_v with norm. rewrite N. cbv zeta. destruct (Rlt_dec epsilon th) as [_|C]; [|exfalso; unfold th in C; lra].
      assert (Tn : th <> 0) by (unfold th; lra). rewrite vdiv_ok by exact Tn. cbn [obind]. f_equal. unfold times. cbn [vx vy vz]. replace (0.5 * th) with (acos (qw q)) by (unfold th; lra). rewrite <- UL. rewrite cos_acos by apply (unit_w q U). destruct q as [w x y z]. cbn [qw qx qy qz] in *. f_equal; field; split; assumption.
    - destruct (Rlt_dec ample_epsilon l) as [C|_]; [lra|reflexivity].
  Qed.
  Lemma vector_quat_assembled v : epsilon < norm v < 2 * PI -> ample_epsilon < sin (norm v / 2) ->
    exists q, quat_from_rotation_vector epsilon v = Ok q /\ unit_quat q /\ (forall u, qrot q u = rotated (times (1 / norm v) v) (norm v) u) /\ rotation_vector_from_quat ample_epsilon q = Ok v.
  Proof.
    intros N S. unfold quat_from_rotation_vector. change length_v with norm. cbv zeta. destruct (Rlt_dec epsilon (norm v)) as [_|C]; [|lra]. rewrite vdiv_ok by lra. cbn [obind]. set (n := norm v) in *.
    set (a := times (1 / n) v). assert (Ua : unit_vec a). { unfold unit_vec. transitivity (1 / n * (1 / n) * dot v v); [unfold a; geo; ring|]. rewrite <- norm_sq. fold n. field. lra. }
    eexists. split; [reflexivity|]. change (Quat (cos (0.5 * n)) (sin (0.5 * n) * vx a) (sin (0.5 * n) * vy a) (sin (0.5 * n) * vz a)) with (quat_from_axis_angle a n). assert (U : unit_quat (quat_from_axis_angle a n)) by (apply unit_axis_angle, Ua).
    split; [exact U|]. split; [intros u; apply axis_angle_assembled, Ua|].
    unfold rotation_vector_from_quat. rewrite (unit_l _ U). cbv zeta. replace (qw (quat_from_axis_angle a n)) with (cos (n / 2)) by (cbn; f_equal; lra). rewrite acos_cos by lra. destruct (Rlt_dec ample_epsilon (sin (n / 2))) as [_|C]; [|lra].
    assert (C1 : cos (n / 2) < 1). { rewrite <- cos_0. apply cos_decreasing_1; lra. } destruct (Rlt_dec (cos (n / 2)) 1) as [_|C]; [|lra]. unfold div_checked. destruct (Req_EM_T (sin (n / 2)) 0); [lra|]. cbn [obind]. f_equal. unfold quat_from_axis_angle. replace (0.5 * n) with (n / 2) by lra. cbn [qx qy qz]. unfold a, times. cbn [vx vy vz].
    destruct v as [x y z]. cbn [vx vy vz]. f_equal; field; split; try assumption; lra.
  Qed.
  Lemma short_vector_assembled v : norm v <= epsilon -> quat_from_rotation_vector epsilon v = Ok qidentity.
  Proof. intros H. unfold quat_from_rotation_vector. change length_v with norm. cbv zeta. destruct (Rlt_dec epsilon (norm v)); [lra|reflexivity]. Qed.

  (** ** between directions *)
  Lemma directions_assembled s t : unit_vec s -> unit_vec t -> - (1) + ample_epsilon <= dot s t ->
    exists q, quat_from_directions ample_epsilon s t = Ok q /\ unit_quat q /\ qrot q s = t /\ 0 < qw q /\ dot (Vec3 (qx q) (qy q) (qz q)) s = 0 /\ dot (Vec3 (qx q) (qy q) (qz q)) t = 0.
  Proof.
    intros Us Ut D. unfold quat_from_directions. change (dot_product s t) with (dot s t). set (d := dot s t) in *. cbv zeta. destruct (Rlt_dec d (- (1) + ample_epsilon)) as [C|_]; [lra|]. change (cross_product s t) with (cross s t).
    set (q0 := Quat (d + 1) (vx (cross s t)) (vy (cross s t)) (vz (cross s t))).
    assert (Q2 : qnorm2 q0 = 2 * (d + 1)). { transitivity ((d + 1) * (d + 1) + (dot s s * dot t t - d * d)); [unfold q0, d; geo; ring|]. unfold unit_vec in *. rewrite Us, Ut. ring. }
    assert (N0 : q0 <> Quat 0 0 0 0) by (intros E; apply (f_equal qw) in E; cbn in E; lra). destruct (normalize_q_ok q0 N0) as (E & U & L). rewrite E. set (k := 1 / length_q q0) in *. eexists. split; [reflexivity|]. split; [exact U|].
    assert (K : k * k * (2 * (d + 1)) = 1) by (rewrite <- Q2, <- qnorm2_scale; exact U). assert (Kp : 0 < k) by (apply Rdiv_lt_0_compat; lra).
    split; [|split; [|split]].
    - rewrite qrot_unit by exact U.
      assert (S : sandwich (qscale q0 k) s = times (k * k) (plus (times ((d + 1) * (d + 1) - dot s s * dot t t + d * d) s) (times (2 * (d + 1)) (minus (times (dot s s) t) (times d s))))) by (unfold sandwich, q0, d; vec; ring).
      rewrite S. unfold unit_vec in Us, Ut. rewrite Us, Ut.
      assert (T : forall p, k * k * (2 * (d + 1) * p) = p) by (intros p; rewrite <- Rmult_assoc, K; ring). destruct s as [s1 s2 s3], t as [t1 t2 t3]. apply vec_eq; cbn [plus times minus vx vy vz]; [rewrite <- (T t1) at 2|rewrite <- (T t2) at 2|rewrite <- (T t3) at 2]; ring.
    - cbn [qw qscale q0]. apply Rmult_lt_0_compat; [lra|exact Kp].
    - unfold q0. geo. ring.
    - unfold q0. geo. ring.
  Qed.
  Lemma directions_refuted_assembled : exists s t q, unit_vec s /\ unit_vec t /\ quat_from_directions ample_epsilon s t = Ok q /\ qrot q s <> t.
  Proof.
    exists e_x, (Vec3 (-1) 0 0), (Quat 0 1 0 0). split; [unfold unit_vec; geo; lra|]. split; [unfold unit_vec; geo; lra|]. split.
    - unfold quat_from_directions. replace (dot_product e_x (Vec3 (-1) 0 0)) with (-1) by (geo; lra). cbv zeta. destruct (Rlt_dec _ _) as [_|C]; [reflexivity|lra].
    - intros E. apply (f_equal vx) in E. geo. lra.
  Qed.

  (** ** swing and twist *)
  Lemma copysign_cases v s : 0 <= v -> copysign v s = if Rlt_dec s 0 then - v else v.
  Proof. intros H. unfold copysign. rewrite Rabs_pos_eq by exact H. reflexivity. Qed.
  (** half of the angle that is chosen has cosine [w / l] and sine [d / l] *)
  Lemma half_angle w d l : 0 < l -> l * l = w * w + d * d -> cos (0.5 * copysign (2 * acos (w / l)) d) = w / l /\ sin (0.5 * copysign (2 * acos (w / l)) d) = d / l.
  Proof.
    intros L E. assert (B : -1 <= w / l <= 1). { assert (W : (w / l) * (w / l) <= 1). { replace ((w / l) * (w / l)) with ((w * w) / (l * l)) by (field; lra). rewrite E. apply (Rmult_le_reg_r (w * w + d * d)); [nra|]. unfold Rdiv. rewrite Rmult_assoc, Rinv_l by nra. nra. } split; nra. }
    pose proof (acos_bound (w / l)) as A. rewrite copysign_cases by lra. assert (Sq : sqrt (1 - (w / l)²) = Rabs d / l). { unfold Rsqr. replace (1 - w / l * (w / l)) with ((d / l) * (d / l)); [|transitivity ((l * l - w * w) / (l * l)); [replace (l * l - w * w) with (d * d) by lra; field; lra|field; lra]].
      change (d / l * (d / l)) with (Rsqr (d / l)). rewrite sqrt_Rsqr_abs. unfold Rdiv. rewrite Rabs_mult. f_equal. apply Rabs_pos_eq. apply Rlt_le, Rinv_0_lt_compat, L. }
    destruct (Rlt_dec d 0) as [C|C].
    - replace (0.5 * - (2 * acos (w / l))) with (- acos (w / l)) by lra. rewrite cos_neg, sin_neg, cos_acos, sin_acos by exact B. split; [reflexivity|]. rewrite Sq, Rabs_left by exact C. field. lra.
    - replace (0.5 * (2 * acos (w / l))) with (acos (w / l)) by lra. rewrite cos_acos, sin_acos by exact B. split; [reflexivity|]. rewrite Sq, Rabs_pos_eq by lra. reflexivity.
  Qed.
  Lemma twist_len_ok q a : unit_vec a -> length_q (Quat (qw q) (dot (Vec3 (qx q) (qy q) (qz q)) a * vx a) (dot (Vec3 (qx q) (qy q) (qz q)) a * vy a) (dot (Vec3 (qx q) (qy q) (qz q)) a * vz a)) = twist_len q a.
  Proof.
    intros H. unfold length_q, twist_len. cbn [qw qx qy qz]. set (d := dot _ a). f_equal. unfold unit_vec, dot in H. transitivity (qw q * qw q + d * d * (vx a * vx a + vy a * vy a + vz a * vz a)); [ring|]. rewrite H. ring.
  Qed.
  Lemma twist_sq q a : twist_len q a * twist_len q a = qw q * qw q + dot (Vec3 (qx q) (qy q) (qz q)) a * dot (Vec3 (qx q) (qy q) (qz q)) a.
  Proof. apply sqrt_sqrt. pose proof (Rle_0_sqr (qw q)). pose proof (Rle_0_sqr (dot (Vec3 (qx q) (qy q) (qz q)) a)). unfold Rsqr in *. lra. Qed.
  Lemma copysign_range c d : - (2 * PI) <= copysign (2 * acos c) d <= 2 * PI.
  Proof. pose proof (acos_bound c). rewrite copysign_cases by lra. destruct (Rlt_dec d 0); lra. Qed.
  Lemma swing_twist q a ang : unit_quat q -> unit_vec a -> 0 < twist_len q a -> cos (0.5 * ang) = qw q / twist_len q a -> sin (0.5 * ang) = dot (Vec3 (qx q) (qy q) (qz q)) a / twist_len q a ->
    exists swing, unit_quat swing /\ q = qmul swing (quat_from_axis_angle a ang) /\ dot (Vec3 (qx swing) (qy swing) (qz swing)) a = 0 /\ 0 < qw swing.
  Proof.
    intros Uq Ua L C S. assert (Ut : unit_quat (quat_from_axis_angle a ang)) by (apply unit_axis_angle, Ua). exists (qmul q (conjugate (quat_from_axis_angle a ang))). split; [apply unit_mul; [exact Uq|apply unit_conj, Ut]|]. split; [rewrite <- qmul_assoc, conj_l by exact Ut; symmetry; apply qmul_id_r|].
    pose proof (twist_sq q a) as T. unfold quat_from_axis_angle. rewrite C, S. set (l := twist_len q a) in *. set (d := dot (Vec3 (qx q) (qy q) (qz q)) a) in *. split.
    - transitivity ((qw q / l) * d - (qw q * (d / l)) * dot a a); [unfold d; geo; ring|]. unfold unit_vec in Ua. rewrite Ua. field. lra.
    - assert (E : qw (qmul q (conjugate (Quat (qw q / l) (d / l * vx a) (d / l * vy a) (d / l * vz a)))) = l); [|rewrite E; exact L]. transitivity ((qw q * qw q + d * d) / l); [unfold d; geo; field; lra|]. rewrite <- T. field. lra.
  Qed.
  Lemma around_axis_assembled q a : unit_quat q -> unit_vec a ->
    (ample_epsilon < twist_len q a -> exists ang, rotation_around_axis ample_epsilon q a = Ok ang /\ - (2 * PI) <= ang <= 2 * PI /\
      exists swing, unit_quat swing /\ q = qmul swing (quat_from_axis_angle a ang) /\ dot (Vec3 (qx swing) (qy swing) (qz swing)) a = 0 /\ 0 < qw swing) /\
    (twist_len q a <= ample_epsilon -> rotation_around_axis ample_epsilon q a = Ok 0).
  Proof.
    intros Uq Ua. unfold rotation_around_axis. change dot_product with dot. cbv zeta. rewrite (twist_len_ok q a Ua). cbn [qw]. split; intros L.
    - destruct (Rlt_dec ample_epsilon (twist_len q a)) as [_|C]; [|lra]. unfold div_checked. destruct (Req_EM_T (twist_len q a) 0); [lra|]. cbn [obind]. eexists. split; [reflexivity|]. split; [apply copysign_range|].
      destruct (half_angle (qw q) (dot (Vec3 (qx q) (qy q) (qz q)) a) (twist_len q a) ltac:(lra) (twist_sq q a)) as (C & S). apply swing_twist; try assumption. lra.
    - destruct (Rlt_dec ample_epsilon (twist_len q a)) as [C|_]; [lra|reflexivity].
  Qed.
  Lemma angle_around_assembled q a : unit_quat q -> unit_vec a -> epsilon < twist_len q a ->
    exists p ang, quat_angle_around_axis epsilon q a = Ok (p, ang) /\ p = quat_from_axis_angle a ang /\ - (2 * PI) <= ang <= 2 * PI /\
      exists swing, unit_quat swing /\ q = qmul swing p /\ dot (Vec3 (qx swing) (qy swing) (qz swing)) a = 0 /\ 0 < qw swing.
  Proof.
    intros Uq Ua L. unfold quat_angle_around_axis. change dot_product with dot. cbv zeta. rewrite (twist_len_ok q a Ua). set (l := twist_len q a) in *. set (d := dot (Vec3 (qx q) (qy q) (qz q)) a) in *. destruct (Rlt_dec epsilon l) as [_|C]; [|lra]. unfold div_checked. destruct (Req_EM_T l 0); [lra|]. cbn [obind qscale qw qx qy qz].
    replace (qw q * (1 / l)) with (qw q / l) by (field; assumption). destruct (half_angle (qw q) d l ltac:(lra) (twist_sq q a)) as (C & S). eexists _, _. split; [reflexivity|].
    assert (P : qscale (Quat (qw q) (d * vx a) (d * vy a) (d * vz a)) (1 / l) = quat_from_axis_angle a (copysign (2 * acos (qw q / l)) d)) by (unfold quat_from_axis_angle, qscale; rewrite C, S; cbn [qw qx qy qz]; f_equal; field; assumption).
    split; [exact P|]. split; [apply copysign_range|]. rewrite P. apply swing_twist; try assumption. change (0 < l). lra.
  Qed.
  Lemma recover_angle a th : unit_vec a -> - (2 * PI) < th <= 2 * PI -> copysign (2 * acos (cos (0.5 * th))) (sin (0.5 * th)) = th.
  Proof.
    intros Ua T. pose proof PI_RGT_0. destruct (Rlt_dec th 0) as [C|C].
    - replace (cos (0.5 * th)) with (cos (- (0.5 * th))) by apply cos_neg. rewrite acos_cos by lra. rewrite copysign_cases by lra. destruct (Rlt_dec (sin (0.5 * th)) 0) as [S|S]; [lra|]. exfalso. apply S. rewrite <- (Ropp_involutive (0.5 * th)), sin_neg. assert (0 < sin (- (0.5 * th))) by (apply sin_gt_0; lra). lra.
    - rewrite acos_cos by lra. rewrite copysign_cases by lra. destruct (Rlt_dec (sin (0.5 * th)) 0) as [S|S]; [|lra]. exfalso. assert (0 <= sin (0.5 * th)) by (apply sin_ge_0; lra). lra.
  Qed.
  Lemma recover_assembled a th : unit_vec a -> - (2 * PI) < th <= 2 * PI -> ample_epsilon < 1 -> rotation_around_axis ample_epsilon (quat_from_axis_angle a th) a = Ok th.
  Proof.
    intros Ua T A1. unfold rotation_around_axis. change dot_product with dot. cbv zeta. rewrite (twist_len_ok _ a Ua).
    assert (D : dot (Vec3 (qx (quat_from_axis_angle a th)) (qy (quat_from_axis_angle a th)) (qz (quat_from_axis_angle a th))) a = sin (0.5 * th)). { unfold quat_from_axis_angle. cbn [qx qy qz]. transitivity (sin (0.5 * th) * dot a a); [geo; ring|]. unfold unit_vec in Ua. rewrite Ua. ring. }
    assert (Tl : twist_len (quat_from_axis_angle a th) a = 1). { unfold twist_len. rewrite D. cbn [quat_from_axis_angle qw]. cbv zeta. rewrite sc1. apply sqrt_1. }
    rewrite Tl, D. destruct (Rlt_dec ample_epsilon 1) as [_|C]; [|lra]. unfold div_checked. destruct (Req_EM_T 1 0); [lra|]. cbn [obind qw]. f_equal. cbn [quat_from_axis_angle qw]. cbv zeta. cbn [qw]. replace (cos (0.5 * th) / 1) with (cos (0.5 * th)) by field. apply (recover_angle a); assumption.
  Qed.
  Lemma main_axes_assembled q : unit_quat q -> qw q <> 0 ->
    exists x y z, rotation_around_x q = Ok x /\ rotation_around_y q = Ok y /\ rotation_around_z q = Ok z /\
      Forall (fun p : vec3 * R => - (2 * PI) <= snd p <= 2 * PI /\ exists swing, unit_quat swing /\ q = qmul swing (quat_from_axis_angle (fst p) (snd p)) /\ dot (Vec3 (qx swing) (qy swing) (qz swing)) (fst p) = 0) [(e_x, x); (e_y, y); (e_z, z)].
  Proof.
    intros U W. assert (P : forall c, 0 < qw q * qw q + c * c) by (intros c; pose proof (Rle_0_sqr c) as S; unfold Rsqr in S; assert (0 < qw q * qw q) by (destruct (Rtotal_order (qw q) 0) as [?|[?|?]]; [nra|contradiction|nra]); lra).
    assert (X : forall a c, unit_vec a -> dot (Vec3 (qx q) (qy q) (qz q)) a = c -> exists ang, (do k <- div_checked (qw q) (sqrt (qw q * qw q + c * c)); Ok (copysign (2 * acos k) c)) = Ok ang /\ - (2 * PI) <= ang <= 2 * PI /\ exists swing, unit_quat swing /\ q = qmul swing (quat_from_axis_angle a ang) /\ dot (Vec3 (qx swing) (qy swing) (qz swing)) a = 0).
    { intros a c Ua <-. fold (twist_len q a). assert (L : 0 < twist_len q a) by (apply sqrt_lt_R0, P). unfold div_checked. destruct (Req_EM_T (twist_len q a) 0); [lra|]. cbn [obind]. eexists. split; [reflexivity|]. split; [apply copysign_range|].
      destruct (half_angle (qw q) (dot (Vec3 (qx q) (qy q) (qz q)) a) (twist_len q a) L (twist_sq q a)) as (C & S). destruct (swing_twist q a _ U Ua L C S) as (s & S1 & S2 & S3 & _). exists s. auto. }
    destruct (X e_x (qx q)) as (x & X1 & X2); [unfold unit_vec; geo; lra|geo; ring|]. destruct (X e_y (qy q)) as (y & Y1 & Y2); [unfold unit_vec; geo; lra|geo; ring|]. destruct (X e_z (qz q)) as (z & Z1 & Z2); [unfold unit_vec; geo; lra|geo; ring|].
    exists x, y, z. split; [exact X1|]. split; [exact Y1|]. split; [exact Z1|]. apply Forall_cons; [exact X2|]. apply Forall_cons; [exact Y2|]. apply Forall_cons; [exact Z2|]. apply Forall_nil.
  Qed.
End Conv.
