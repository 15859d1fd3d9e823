(** * C95 splines with times from the distances are smooth *)
From Coq Require Import List Arith Bool Reals Lra Lia.
From Coquelicot Require Import Coquelicot.
From Verif Require Import Base BaseProofs GeoSpec NumModel StatModel GeoModel GeoProofs ShpSpec SplSpec SplModel SplProofs SpaProofs.
Import ListNotations.
Local Open Scope R_scope.

(** ** consecutive segments meet in the same point, in the same direction; their velocities there have the ratio of their durations, so per unit of time they agree *)
Theorem C95_alpha_smooth : forall pow alpha p0 p1 p2 p3 p4, (forall x, 0 < x -> 0 < pow x alpha) -> p0 <> p1 -> p1 <> p2 -> p2 <> p3 -> p3 <> p4 ->
  let d := pow (apart p1 p2) alpha in let e := pow (apart p2 p3) alpha in
  let m := plus (minus (times (/ d) (minus p2 p1)) (times (/ (d + e)) (minus p3 p1))) (times (/ e) (minus p3 p2)) in
  exists f g, (forall t, alpha_at pow p0 p1 p2 p3 alpha t = Ok (f t)) /\ (forall t, alpha_at pow p1 p2 p3 p4 alpha t = Ok (g t)) /\
  f 1 = p2 /\ g 0 = p2 /\ velocity f 1 (times d m) /\ velocity g 0 (times e m) /\ (d = e -> exists v, velocity f 1 v /\ velocity g 0 v).
Proof.
  intros pow alpha p0 p1 p2 p3 p4 P A B C D d e m. pose proof (P _ (apart_pos _ _ A)) as PA. pose proof (P _ (apart_pos _ _ B)) as PB. pose proof (P _ (apart_pos _ _ C)) as PC. pose proof (P _ (apart_pos _ _ D)) as PD. fold d in PB. fold e in PC.
  exists (alpha_curve (pow (apart p0 p1) alpha) d e p0 p1 p2 p3), (alpha_curve d e (pow (apart p3 p4) alpha) p1 p2 p3 p4).
  assert (F : forall t, alpha_at pow p0 p1 p2 p3 alpha t = Ok (alpha_curve (pow (apart p0 p1) alpha) d e p0 p1 p2 p3 t)) by (intros t; apply alpha_curve_ok; assumption).
  assert (G : forall t, alpha_at pow p1 p2 p3 p4 alpha t = Ok (alpha_curve d e (pow (apart p3 p4) alpha) p1 p2 p3 p4 t)) by (intros t; apply alpha_curve_ok; assumption).
  split; [exact F|]. split; [exact G|]. destruct (alpha_assembled pow alpha p0 p1 p2 p3 P A B C) as (_ & F1 & _). destruct (alpha_assembled pow alpha p1 p2 p3 p4 P B C D) as (G0 & _ & _). rewrite F in F1. rewrite G in G0. injection F1 as F1. injection G0 as G0.
  split; [exact F1|]. split; [exact G0|]. destruct (alpha_velocity (pow (apart p0 p1) alpha) d e p0 p1 p2 p3 PA PB PC) as [_ V]. destruct (alpha_velocity d e (pow (apart p3 p4) alpha) p1 p2 p3 p4 PB PC PD) as [W _].
  assert (M : tangent d e p1 p2 p3 = m) by (unfold m, tangent, rate, Rdiv; vec; ring). rewrite M in V, W. split; [exact V|]. split; [exact W|]. intros E. exists (times e m). split; [replace (times e m) with (times d m) by (rewrite E; reflexivity); exact V|exact W].
Qed.
Print Assumptions C95_alpha_smooth.
(** ** but the velocities as functions of the segments' own parameters differ when the distances do *)
Theorem C95_alpha_velocity_refuted : exists p0 p1 p2 p3 p4 f g, (forall t, alpha_at Rpower p0 p1 p2 p3 1 t = Ok (f t)) /\ (forall t, alpha_at Rpower p1 p2 p3 p4 1 t = Ok (g t)) /\ f 1 = g 0 /\ forall v w, velocity f 1 v -> velocity g 0 w -> v <> w.
Proof.
  assert (AP : forall a b, a < b -> apart (Vec3 a 0 0) (Vec3 b 0 0) = b - a). { intros a b H. unfold apart, norm. replace (dot (minus (Vec3 a 0 0) (Vec3 b 0 0)) (minus (Vec3 a 0 0) (Vec3 b 0 0))) with (Rsqr (b - a)) by (unfold Rsqr; geo; ring). rewrite sqrt_Rsqr by lra. reflexivity. }
  assert (NE : forall a b, a < b -> Vec3 a 0 0 <> Vec3 b 0 0) by (intros a b H [= E]; lra).
  destruct (C95_alpha_smooth Rpower 1 (Vec3 0 0 0) (Vec3 1 0 0) (Vec3 2 0 0) (Vec3 4 0 0) (Vec3 5 0 0) (fun x _ => exp_pos _)) as (f & g & F & G & F1 & G0 & V & W & _); [apply NE; lra..|].
  exists (Vec3 0 0 0), (Vec3 1 0 0), (Vec3 2 0 0), (Vec3 4 0 0), (Vec3 5 0 0), f, g. split; [exact F|]. split; [exact G|]. split; [congruence|]. intros v w Vv Vw E. rewrite !AP, !Rpower_1 in V, W by lra.
  destruct V as [V _], W as [W _], Vv as [Vv _], Vw as [Vw _]. apply is_derive_unique in V, W, Vv, Vw. rewrite V in Vv. rewrite W in Vw. apply (f_equal vx) in E. rewrite <- Vv, <- Vw in E. clear - E. geo. field_simplify in E. lra.
Qed.
Print Assumptions C95_alpha_velocity_refuted.
(** ** with equal times it is the spline without times *)
Theorem C95_alpha_zero : forall pow alpha p0 p1 p2 p3, pow (apart p0 p1) alpha = 1 -> pow (apart p1 p2) alpha = 1 -> pow (apart p2 p3) alpha = 1 -> forall t, alpha_at pow p0 p1 p2 p3 alpha t = Ok (seg_at (make_segment p0 p1 p2 p3) t).
Proof.
  intros pow alpha p0 p1 p2 p3 A B C t. rewrite (alpha_curve_ok pow) by (rewrite ?A, ?B, ?C; lra). rewrite A, B, C. f_equal. unfold alpha_curve, coordinate, seg_at, make_segment. cbn [seg_a seg_b seg_c seg_d]. vec; field.
Qed.
Print Assumptions C95_alpha_zero.
Example C95_alpha_smooth_case : (forall x, 0 < x -> 0 < Rpower x (1 / 2)) /\ Vec3 0 0 0 <> Vec3 0 1 0 /\ Vec3 0 1 0 <> Vec3 2 1 0 /\ Vec3 2 1 0 <> Vec3 2 1 5 /\ Vec3 2 1 5 <> Vec3 0 0 0 /\ (forall x, 0 < x -> Rpower x 0 = 1).
Proof. split; [intros x _; apply exp_pos|]. split; [intros [= E]; lra|]. split; [intros [= E]; lra|]. split; [intros [= E]; lra|]. split; [intros [= E E1 E2]; lra|]. intros x H. apply Rpower_O. exact H. Qed.
