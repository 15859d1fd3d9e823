(** Lemmas about the velocity of splines with times from the distances. *)
From Coq Require Import List Arith Bool Reals Lra Lia.
From Coquelicot Require Import Coquelicot.
From Verif Require Import Base BaseProofs GeoSpec NumModel StatModel GeoModel GeoProofs ShpSpec SplSpec SplModel SplProofs.
Import ListNotations.
Local Open Scope R_scope.

(** one coordinate of a segment with durations [x], [y], [z] *)
Definition coordinate (x y z a b c d s : R) : R :=
  let t := x + s * y in
  let A1 := (x - t) / x * a + t / x * b in
  let A2 := (x + y - t) / y * b + (t - x) / y * c in
  let A3 := (x + y + z - t) / z * c + (t - (x + y)) / z * d in
  let B1 := (x + y - t) / (x + y) * A1 + t / (x + y) * A2 in
  let B2 := (x + y + z - t) / (y + z) * A2 + (t - x) / (y + z) * A3 in
  (x + y - t) / y * B1 + (t - x) / y * B2.
(** the change per unit of time at the point in the middle of three *)
Definition rate (x y a b c : R) : R := (b - a) / x - (c - a) / (x + y) + (c - b) / y.
Lemma coordinate_first x y z a b c d : 0 < x -> 0 < y -> 0 < z -> is_derive (coordinate x y z a b c d) 0 (y * rate x y a b c).
Proof. intros X Y Z. unfold coordinate. auto_derive; [repeat split; lra|]. unfold rate. field. repeat split; lra. Qed.
Lemma coordinate_last x y z a b c d : 0 < x -> 0 < y -> 0 < z -> is_derive (coordinate x y z a b c d) 1 (y * rate y z b c d).
Proof. intros X Y Z. unfold coordinate. auto_derive; [repeat split; lra|]. unfold rate. field. repeat split; lra. Qed.
Definition alpha_curve (x y z : R) (a b c d : vec3) (s : R) : vec3 :=
  Vec3 (coordinate x y z (vx a) (vx b) (vx c) (vx d) s) (coordinate x y z (vy a) (vy b) (vy c) (vy d) s) (coordinate x y z (vz a) (vz b) (vz c) (vz d) s).
Lemma alpha_curve_ok pow alpha p0 p1 p2 p3 s : let x := pow (apart p0 p1) alpha in let y := pow (apart p1 p2) alpha in let z := pow (apart p2 p3) alpha in 0 < x -> 0 < y -> 0 < z ->
  alpha_at pow p0 p1 p2 p3 alpha s = Ok (alpha_curve x y z p0 p1 p2 p3 s).
Proof.
  intros x y z X Y Z. unfold alpha_at, alpha_times. change (distance_v p0 p1) with (apart p0 p1). change (distance_v p1 p2) with (apart p1 p2). change (distance_v p2 p3) with (apart p2 p3). fold x y z. cbv beta iota zeta. clearbody x y z.
  rewrite mix_ok by lra. cbn [obind]. rewrite mix_ok by lra. cbn [obind]. rewrite mix_ok by lra. cbn [obind]. rewrite mix_ok by lra. cbn [obind]. rewrite mix_ok by lra. cbn [obind]. rewrite mix_ok by lra. f_equal. unfold alpha_curve, coordinate.
  replace (x + y + z - (x + y)) with z by ring. replace (x + y - x) with y by ring. replace (x + y + z - x) with (y + z) by ring. rewrite !Rminus_0_r. vec; reflexivity.
Qed.
Definition tangent (x y : R) (a b c : vec3) : vec3 := Vec3 (rate x y (vx a) (vx b) (vx c)) (rate x y (vy a) (vy b) (vy c)) (rate x y (vz a) (vz b) (vz c)).
Lemma alpha_velocity x y z a b c d : 0 < x -> 0 < y -> 0 < z -> velocity (alpha_curve x y z a b c d) 0 (times y (tangent x y a b c)) /\ velocity (alpha_curve x y z a b c d) 1 (times y (tangent y z b c d)).
Proof. intros X Y Z. split; (split; [|split]); cbn [vx vy vz alpha_curve tangent times]; (apply coordinate_first || apply coordinate_last); assumption. Qed.
