(** Theorems about splines. *)
From Coq Require Import List Arith Reals Lra Lia.
From Coquelicot Require Import Coquelicot.
From Verif Require Import Base GeoSpec NumModel StatModel GeoModel GeoProofs ShpSpec SplSpec SplModel SplProofs.
Import ListNotations.
Open Scope R_scope.

(** C95: a segment runs from its second to its third point, with the velocities given by the neighbours *)
Theorem C95_segment : forall p0 p1 p2 p3, let f := seg_at (make_segment p0 p1 p2 p3) in
  f 0 = p1 /\ f 1 = p2 /\ velocity f 0 (times (1 / 2) (minus p2 p0)) /\ velocity f 1 (times (1 / 2) (minus p3 p1)).
Proof. exact segment_assembled. Qed.
Print Assumptions C95_segment.
(** C95: consecutive segments join without a jump or a bend *)
Theorem C95_smooth : forall p0 p1 p2 p3 p4, let f := seg_at (make_segment p0 p1 p2 p3) in let g := seg_at (make_segment p1 p2 p3 p4) in
  f 1 = g 0 /\ exists v, velocity f 1 v /\ velocity g 0 v.
Proof. exact join_smooth. Qed.
Print Assumptions C95_smooth.
(** C95: for equally spaced points on a line the segment is the line *)
Theorem C95_line : forall a d t, seg_at (make_segment a (plus a d) (plus a (times 2 d)) (plus a (times 3 d))) t = plus a (times (1 + t) d).
Proof. exact segment_line_assembled. Qed.
Print Assumptions C95_line.
Example C95_segment_case : seg_at (make_segment (Vec3 0 0 0) (Vec3 0 1 0) (Vec3 1 1 0) (Vec3 1 0 0)) (1 / 2) = Vec3 (1 / 2) (9 / 8) 0.
Proof. unfold seg_at, make_segment. cbn [seg_a seg_b seg_c seg_d]. vec; field. Qed.

(** C95: the variant with times from the distances also runs from the second to the third point, and is defined everywhere, if neighbouring points differ *)
Theorem C95_alpha : forall pow alpha p0 p1 p2 p3, (forall x, 0 < x -> 0 < pow x alpha) -> p0 <> p1 -> p1 <> p2 -> p2 <> p3 ->
  alpha_at pow p0 p1 p2 p3 alpha 0 = Ok p1 /\ alpha_at pow p0 p1 p2 p3 alpha 1 = Ok p2 /\ forall t, exists p, alpha_at pow p0 p1 p2 p3 alpha t = Ok p.
Proof. exact alpha_assembled. Qed.
Print Assumptions C95_alpha.
Example C95_alpha_case : (forall x, 0 < x -> 0 < Rpower x (1 / 2)) /\ Vec3 0 0 0 <> Vec3 0 1 0.
Proof. split; [intros x _; apply exp_pos|]. intros [= E]. lra. Qed.
(** With a repeated point it divides zero by zero. *)
Theorem C95_alpha_refuted : forall pow alpha p1 p2 p3 t, pow 0 alpha = 0 -> alpha_at pow p1 p1 p2 p3 alpha t = UB.
Proof. exact alpha_same_assembled. Qed.
Print Assumptions C95_alpha_refuted.

(** C95: a spline needs at least four points and two times less; for increasing times it goes through all points but the first and the last, at their times; between two times it is the segment of the four points around, and before the first and after the last time the outer segments go on *)
Theorem C95_spline : forall pts times, (~ ((4 <= length pts)%nat /\ length times = (length pts - 2)%nat) -> make_spline pts times = Throw) /\
  ((4 <= length pts)%nat -> length times = (length pts - 2)%nat -> increasing times -> exists s, make_spline pts times = Ok s /\
    (forall i, (i < length times)%nat -> spline_at s (nth i times 0) = Ok (nth (S i) pts origin)) /\
    (forall i t, (S i < length times)%nat -> (i = 0%nat \/ nth i times 0 <= t) -> (S (S i) = length times \/ t <= nth (S i) times 0) ->
       spline_at s t = Ok (seg_at (make_segment (nth i pts origin) (nth (i + 1) pts origin) (nth (i + 2) pts origin) (nth (i + 3) pts origin)) ((t - nth i times 0) / (nth (S i) times 0 - nth i times 0))))).
Proof. exact spline_assembled. Qed.
Print Assumptions C95_spline.
Example C95_spline_case : increasing [1; 3; 4] /\ exists s, make_spline [Vec3 0 0 0; Vec3 1 0 0; Vec3 1 2 0; Vec3 0 5 1; Vec3 7 7 7] [1; 3; 4] = Ok s /\ spline_at s 3 = Ok (Vec3 1 2 0).
Proof.
  assert (I : increasing [1; 3; 4]). { intros i j H. cbn [length] in H. destruct i as [|[|[|i]]], j as [|[|[|j]]]; try lia; cbn; lra. }
  split; [exact I|]. destruct (proj2 (C95_spline [Vec3 0 0 0; Vec3 1 0 0; Vec3 1 2 0; Vec3 0 5 1; Vec3 7 7 7] [1; 3; 4]) ltac:(cbn; lia) eq_refl I) as (s & E & A & _). exists s. split; [exact E|]. apply (A 1%nat). cbn. lia.
Qed.

(** C96: the length of a spline is that of the polyline through the samples, so never less than the distance between its ends *)
Theorem C96_length : forall f t0 t1 n, (0 < n)%nat ->
  compute_spline_length f t0 t1 n = polyline_length (samples f t0 t1 n) /\ apart (f t1) (f t0) <= compute_spline_length f t0 t1 n.
Proof. exact spline_length_assembled. Qed.
Print Assumptions C96_length.
(** C96: dividing the steps further never makes it shorter *)
Theorem C96_refine : forall f t0 t1 n k, (0 < n)%nat -> (0 < k)%nat -> compute_spline_length f t0 t1 n <= compute_spline_length f t0 t1 (k * n).
Proof. exact spline_refine_assembled. Qed.
Print Assumptions C96_refine.
(** C96: on a straight line it is exact *)
Theorem C96_straight : forall a d t0 t1 n, (0 < n)%nat -> compute_spline_length (fun t => plus a (times t d)) t0 t1 n = apart (plus a (times t1 d)) (plus a (times t0 d)).
Proof. exact spline_straight_assembled. Qed.
Print Assumptions C96_straight.
Example C96_length_case : samples (fun t => Vec3 t 0 0) 0 4 2 = [Vec3 0 0 0; Vec3 2 0 0; Vec3 4 0 0].
Proof. unfold samples. cbn [seq map INR]. repeat f_equal; lra. Qed.
Close Scope R_scope.
