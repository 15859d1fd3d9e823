(** C44, C57, C81, C82, C83: delays, filters, accumulators, polynomials. *)
From Coq Require Import List Arith Bool ZArith Reals Lra Lia.
From Verif Require Import Base NumSpec SigSpec SigModel SigProofs.
Import ListNotations.
Open Scope R_scope.

(** C44: a delayer with N elements keeps the input at multiples of its window, which is delay / (N - 1) (the value of the sample nearest to it). At time T it returns the linear interpolation of these at time T - delay. *)
Theorem C44_delayer_partial : forall N delay init dt (x : nat -> R) n j v1 v2, let W := delay / INR (N - 1) in let T := INR n * dt in
  (2 <= N)%nat -> 0 < delay -> 0 < dt <= W -> INR j * W < T - delay + dt / 2 <= INR (S j) * W ->
  sampled W dt init x j v1 -> sampled W dt init x (S j) v2 ->
  exists d d' y, make_delayer N delay init = Ok d /\ delayer_adds d (map (fun i => (x i, dt)) (seq 1 n)) = Ok d' /\ delayed_value d' = Ok y /\
    on_line (INR j * W) v1 (INR (S j) * W) v2 (T - delay) y.
Proof. exact delayer_assembled. Qed.
Print Assumptions C44_delayer_partial.
(** delay 2, samples 1, 2, 3, ... every second: after five seconds the third sample *)
Example C44_delayer_case : exists d d' y, make_delayer 3 2 0 = Ok d /\ delayer_adds d (map (fun i => (INR i, 1)) (seq 1 5)) = Ok d' /\ delayed_value d' = Ok y /\ y = 3.
Proof.
  destruct (C44_delayer_partial 3 2 0 1 INR 5 3 3 4) as (d & d' & y & E1 & E2 & E3 & L); try lia; try (cbn; lra).
  - right. split; [lia|]. exists 3%nat. unfold nearest. cbn. split; lra.
  - right. split; [lia|]. exists 4%nat. unfold nearest. cbn. split; lra.
  - exists d, d', y. split; [exact E1|]. split; [exact E2|]. split; [exact E3|]. unfold on_line in L. cbn in L. lra.
Qed.

(** C44: a delay that is not positive is rejected *)
Theorem C44_rejected : forall N delay init, (make_delayer N delay init = Throw <-> delay <= 0) /\ (make_smooth N delay init = Throw <-> delay <= 0).
Proof. intros N delay init. unfold make_delayer, make_smooth. destruct (Rlt_dec 0 delay); split; split; intros; try discriminate; try reflexivity; lra. Qed.
Print Assumptions C44_rejected.

(** before anything was added, a delayer returns 0 and not the initial value it was given *)
Theorem C44_initial_refuted : forall N delay init, (2 <= N)%nat -> 0 < delay ->
  (exists d y, make_delayer N delay init = Ok d /\ delayed_value d = Ok y /\ y = 0) /\ (exists d y, make_smooth N delay init = Ok d /\ smooth_value d = Ok y /\ y = 0).
Proof. intros N delay init H1 H2. split; [apply fresh_delayer; assumption|apply fresh_smooth; assumption]. Qed.
Print Assumptions C44_initial_refuted.
Example C44_initial_case : exists d y, make_delayer 2 1 5 = Ok d /\ delayed_value d = Ok y /\ y <> 5.
Proof. destruct (C44_initial_refuted 2 1 5) as [(d & y & E1 & E2 & ->) _]; [lia|lra|]. exists d, 0. repeat split; try assumption. lra. Qed.

(** with time steps longer than the window only one window is taken off at a time, and the result can be larger than everything that was put in *)
Theorem C44_long_step_refuted : exists d d' y, make_delayer 2 1 0 = Ok d /\ delayer_adds d [(1, 2); (2, 2); (3, 2)] = Ok d' /\ delayed_value d' = Ok y /\ y = 5.
Proof.
  unfold make_delayer. destruct (Rlt_dec 0 1); [|lra]. eexists _, _, _. split; [reflexivity|]. cbn [INR Nat.sub]. unfold delayer_adds, delayer_add. cbn [d_window d_time d_idx d_data length repeat Nat.add].
  destruct (Rlt_dec _ _) as [_|C]; [|exfalso; apply C; lra]. change (1 mod 2)%nat with 1%nat. cbn [vec_set length Nat.ltb Nat.leb obind list_set d_window d_time d_idx d_data].
  destruct (Rlt_dec _ _) as [_|C]; [|exfalso; apply C; lra]. change ((1 + 1) mod 2)%nat with 0%nat. cbn [vec_set length Nat.ltb Nat.leb obind list_set d_window d_time d_idx d_data].
  destruct (Rlt_dec _ _) as [_|C]; [|exfalso; apply C; lra]. change ((0 + 1) mod 2)%nat with 1%nat. cbn [vec_set length Nat.ltb Nat.leb obind list_set d_window d_time d_idx d_data].
  split; [reflexivity|]. unfold delayed_value. cbn [d_window d_time d_idx d_data length]. change ((1 + 2 + 2) mod 2)%nat with 1%nat. change ((1 + 2 + 1) mod 2)%nat with 0%nat. cbn [vec_get nth_error obind]. split; [reflexivity|]. lra.
Qed.
Print Assumptions C44_long_step_refuted.

(** C44: a smooth delayer keeps the mean of the input in windows of length delay / (N - 1/2), for time steps of any length up to that of a window. At time T it returns the linear interpolation, at time T - delay, of these means at the centres of the windows. *)
Theorem C44_smooth_delayer_partial : forall N delay init steps j, let W := delay / (INR N - 1 / 2) in let T := total (map snd steps) in
  (2 <= N)%nat -> 0 < delay -> (forall v dt, In (v, dt) steps -> 0 <= dt <= W) -> (1 <= j)%nat -> (INR j - 1 / 2) * W <= T - delay < (INR j + 1 / 2) * W ->
  exists d d' y, make_smooth N delay init = Ok d /\ smooth_adds d steps = Ok d' /\ smooth_value d' = Ok y /\
    on_line ((INR j - 1 / 2) * W) (window_mean steps W j) ((INR j + 1 / 2) * W) (window_mean steps W (S j)) (T - delay) y.
Proof. exact smooth_assembled. Qed.
Print Assumptions C44_smooth_delayer_partial.
Example C44_smooth_delayer_case : exists d d' y, make_smooth 2 3 0 = Ok d /\ smooth_adds d [(4, 2); (6, 1); (8, 1)] = Ok d' /\ smooth_value d' = Ok y /\ y = 4.
Proof.
  destruct (C44_smooth_delayer_partial 2 3 0 [(4, 2); (6, 1); (8, 1)] 1) as (d & d' & y & E1 & E2 & E3 & L); try lia; try (cbn; lra).
  - intros v dt [E|[E|[E|[]]]]; injection E as <- <-; cbn; lra.
  - exists d, d', y. split; [exact E1|]. split; [exact E2|]. split; [exact E3|]. unfold on_line, window_mean in L. cbn [INR] in L.
    replace (3 / (1 + 1 - 1 / 2)) with 2 in L by field. replace (1 * 2) with 2 in L by ring. replace ((1 - 1) * 2) with 0 in L by ring. replace ((1 + 1) * 2) with 4 in L by ring. replace ((1 + 1 - 1) * 2) with 2 in L by ring.
    cbn [area map snd total fold_right] in L. repeat (destruct (Rle_dec _ _); try lra).
Qed.

(** C57: a recursive filter satisfies its difference equation, with zeros before the beginning *)
Theorem C57_equation : forall b0 b a u, b <> [] -> difference_equation b0 b a u (iir_run (make_iir b0 b a) u).
Proof. exact filter_equation. Qed.
Print Assumptions C57_equation.
Example C57_equation_case : iir_run (make_iir 1 [2; 0] [0; 3]) [1; 0; 0] = [1 * 1 + (2 * 0 + 0 * 0) + (0 * 0 + 3 * 0); 1 * 0 + (2 * 1 + 0 * (1 * 1 + (2 * 0 + 0 * 0) + (0 * 0 + 3 * 0))) + (0 * 0 + 3 * 0); 1 * 0 + (2 * 0 + 0 * (1 * 0 + (2 * 1 + 0 * (1 * 1 + (2 * 0 + 0 * 0) + (0 * 0 + 3 * 0))) + (0 * 0 + 3 * 0))) + (0 * 1 + 3 * (1 * 1 + (2 * 0 + 0 * 0) + (0 * 0 + 3 * 0)))].
Proof. reflexivity. Qed.

(** C57: the velocity is the difference between the last two outputs *)
Theorem C57_velocity : forall b0 b a u, (2 <= length b)%nat -> (2 <= length u)%nat -> let y := iir_run (make_iir b0 b a) u in
  iir_velocity (iir_after (make_iir b0 b a) u) = nth (length u - 1) y 0 - nth (length u - 2) y 0.
Proof. exact velocity_assembled. Qed.
Print Assumptions C57_velocity.
Example C57_velocity_case : iir_velocity (iir_after (make_iir 1 [0; 0] [0; 0]) [3; 5; 9]) = 4.
Proof. unfold iir_velocity, iir_after, make_iir. cbn. lra. Qed.

(** C57: filters are linear and time invariant *)
Theorem C57_linear : forall b0 b a p q u v, b <> [] -> length u = length v ->
  iir_run (make_iir b0 b a) (combine_signals p q u v) = combine_signals p q (iir_run (make_iir b0 b a) u) (iir_run (make_iir b0 b a) v).
Proof. exact linear_assembled. Qed.
Print Assumptions C57_linear.
Example C57_linear_case : length [1; 2; 3] = length [4; 5; 6] /\ combine_signals 2 3 [1] [4] = [2 * 1 + 3 * 4].
Proof. split; reflexivity. Qed.

Theorem C57_time_invariant : forall b0 b a k u, b <> [] -> iir_run (make_iir b0 b a) (repeat 0 k ++ u) = repeat 0 k ++ iir_run (make_iir b0 b a) u.
Proof. exact shift_assembled. Qed.
Print Assumptions C57_time_invariant.
Example C57_time_invariant_case : exists y1 y2, iir_run (make_iir 1 [2] [3]) [0; 1; 0] = [0; y1; y2] /\ iir_run (make_iir 1 [2] [3]) [1; 0] = [y1; y2] /\ y2 = 5.
Proof. pose proof (C57_time_invariant 1 [2] [3] 1 [1; 0]) as H. cbn [repeat app] in H. rewrite H by discriminate. eexists _, _. split; [reflexivity|]. split; [reflexivity|]. cbn. lra. Qed.

(** C57: the Butterworth low-pass filter, with a cutoff below half the sampling rate, converges to a constant input *)
Theorem C57_butterworth_constant : forall c v, 0 < c < 1 / 2 -> forall eps, 0 < eps -> exists n0, forall n L, (n0 <= n < L)%nat -> Rabs (nth n (iir_run (butterworth c) (repeat v L)) 0 - v) < eps.
Proof. exact butterworth_constant. Qed.
Print Assumptions C57_butterworth_constant.
Example C57_butterworth_constant_case : exists n0, forall n L, (n0 <= n < L)%nat -> Rabs (nth n (iir_run (butterworth (1 / 4)) (repeat 7 L)) 0 - 7) < 1 / 1000.
Proof. apply C57_butterworth_constant; lra. Qed.

(** C57: a sinusoid of frequency f goes over into one of the same frequency, with the gain of a second order Butterworth filter: 1 / sqrt (1 + (tan (pi f) / tan (pi c))^4), which is 1 / sqrt 2 at the cutoff *)
Theorem C57_butterworth_gain : forall c f, 0 < c < 1 / 2 -> 0 <= f < 1 / 2 -> exists A B, A * A + B * B = 1 / (1 + (tan (PI * f) / tan (PI * c)) ^ 4) /\
  forall eps, 0 < eps -> exists n0, forall n L, (n0 <= n < L)%nat ->
    Rabs (nth n (iir_run (butterworth c) (map (fun k => cos (2 * PI * f * INR k)) (seq 0 L))) 0 - (A * cos (2 * PI * f * INR n) + B * sin (2 * PI * f * INR n))) < eps.
Proof. exact butterworth_assembled. Qed.
Print Assumptions C57_butterworth_gain.
Example C57_butterworth_gain_case : exists A B, A * A + B * B = 1 / 2 /\ forall eps, 0 < eps -> exists n0, forall n L, (n0 <= n < L)%nat ->
    Rabs (nth n (iir_run (butterworth (1 / 8)) (map (fun k => cos (2 * PI * (1 / 8) * INR k)) (seq 0 L))) 0 - (A * cos (2 * PI * (1 / 8) * INR n) + B * sin (2 * PI * (1 / 8) * INR n))) < eps.
Proof.
  destruct (C57_butterworth_gain (1 / 8) (1 / 8)) as (A & B & E & H); [lra|lra|]. exists A, B. split; [|exact H]. rewrite E. assert (0 < tan (PI * (1 / 8))) by (apply tan_half_pos; lra).
  replace (tan (PI * (1 / 8)) / tan (PI * (1 / 8))) with 1 by (field; lra). lra.
Qed.

(** C81: the accurate update of a first order filter does not depend on how the time is divided into steps; it never overshoots *)
Theorem C81_accurate : forall rate v old, (forall d1 d2, update_accurate rate (update_accurate rate old v d1) v d2 = update_accurate rate old v (d1 + d2)) /\
  (forall dts, fold_left (fun s dt => update_accurate rate s v dt) dts old = v + (old - v) * exp (- rate * total dts)) /\
  (forall dt, 0 <= rate -> 0 <= dt -> Rmin old v <= update_accurate rate old v dt <= Rmax old v) /\ (forall dt, update_accurate rate v v dt = v).
Proof. exact accurate_assembled. Qed.
Print Assumptions C81_accurate.
Example C81_accurate_case : update_accurate 2 0 10 (1 / 2) = 10 - 10 * exp (-1).
Proof. unfold update_accurate. replace (- (2) * (1 / 2)) with (-1) by lra. lra. Qed.

(** C81: the fast update goes towards the target and does not overshoot, as long as the time step is at most 1 / rate *)
Theorem C81_fast : forall rate v old dt, (0 <= dt * rate <= 1 -> Rmin old v <= update_fast rate old v dt <= Rmax old v) /\ update_fast rate v v dt = v /\
  update_fast rate old v dt - v = (1 - dt * rate) * (old - v).
Proof. exact fast_assembled. Qed.
Print Assumptions C81_fast.
Example C81_fast_case : update_fast 2 0 10 (1 / 4) = 5.
Proof. unfold update_fast. lra. Qed.

(** with a longer time step it does overshoot *)
Theorem C81_fast_refuted : exists rate v old dt, 0 < rate /\ 0 < dt /\ ~ (Rmin old v <= update_fast rate old v dt <= Rmax old v).
Proof. exists 3, 1, 0, 1. unfold update_fast, Rmin, Rmax. destruct (Rle_dec 0 1); lra. Qed.
Print Assumptions C81_fast_refuted.

(** C82: the differences add up to the last value *)
Theorem C82_delta : forall l p, length (delta_run p l) = length l /\ (forall k, (k <= length l)%nat -> p + total (firstn k (delta_run p l)) = last (firstn k l) p).
Proof. exact delta_assembled. Qed.
Print Assumptions C82_delta.
Example C82_delta_case : delta_run 1 [3; 7] = [3 - 1; 7 - 3].
Proof. reflexivity. Qed.

(** C82: a weighted average, which lies between the smallest and largest value *)
Theorem C82_average : forall l, let a := fold_left (fun a p => avg_add a (fst p) (snd p)) l avg_empty in let tw := total (map snd l) in
  (0 < tw -> avg_get a = total (map (fun p => snd p * fst p) l) / tw) /\ (tw <= 0 -> avg_get a = 0) /\ (avg_is_empty a = true <-> tw = 0) /\
  (forall lo hi, (forall v w, In (v, w) l -> lo <= v <= hi /\ 0 <= w) -> 0 < tw -> lo <= avg_get a <= hi).
Proof. exact average_assembled. Qed.
Print Assumptions C82_average.
Example C82_average_case : avg_get (avg_add (avg_add avg_empty 4 1) 8 3) = 7.
Proof. unfold avg_get, avg_add, avg_empty. cbn [tot_v tot_w]. destruct (Rlt_dec 0 (0 + 1 + 3)); lra. Qed.

(** C83: polynomials *)
Theorem C83_polynomial : forall coeff v, coeff <> [] -> polynomial_eval coeff v = power_sum coeff v.
Proof. exact polynomial_assembled. Qed.
Print Assumptions C83_polynomial.
Example C83_polynomial_case : polynomial_eval [1; 2; 3] 2 = 17.
Proof. unfold polynomial_eval. cbn. lra. Qed.

Theorem C83_intersect : forall o s y x, s <> 0 -> (polynomial_eval [o; s] x = y <-> x = intersect_y o s y).
Proof. exact intersect_assembled. Qed.
Print Assumptions C83_intersect.
Example C83_intersect_case : intersect_y 1 2 7 = 3.
Proof. unfold intersect_y. lra. Qed.

(** C83: the minimum jerk curve goes from 0 to 1, is point symmetric and strictly increasing, and its first and second derivative vanish at both ends *)
Theorem C83_minimum_jerk : minimum_jerk 0 = 0 /\ minimum_jerk 1 = 1 /\ (forall x, minimum_jerk (1 - x) = 1 - minimum_jerk x) /\ (forall x y, x < y -> minimum_jerk x < minimum_jerk y) /\
  (forall x, derivable_pt_lim minimum_jerk x (30 * (x * x) * ((1 - x) * (1 - x)))) /\ (forall x, derivable_pt_lim (fun x => 30 * (x * x) * ((1 - x) * (1 - x))) x (60 * x * (1 - x) * (1 - 2 * x))).
Proof. exact jerk_assembled. Qed.
Print Assumptions C83_minimum_jerk.
Example C83_minimum_jerk_case : minimum_jerk (1 / 2) = 1 / 2.
Proof. unfold minimum_jerk. lra. Qed.
Close Scope R_scope.
