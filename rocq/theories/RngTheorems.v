(** Theorems about ranges of floating point numbers, function tables and plots. *)
From Coq Require Import Ascii String List Arith Bool ZArith Reals Lra Lia.
From Flocq Require Import Core IEEE754.BinarySingleNaN.
From Verif Require Import Base Str NumModel ColModel RngSpec RngModel RngProofs.
Import ListNotations.
Open Scope R_scope.

(** ** C118 ranges *)
Theorem C118_steps : forall lower upper steps, (2 <= steps)%nat -> exists l, evenly lower upper (steps - 1) l /\
  forall fuel, (steps < fuel)%nat -> elements_R (range_steps lower upper (Z.of_nat steps)) fuel = Some (map Some l).
Proof. exact steps_assembled. Qed.
Print Assumptions C118_steps.
Theorem C118_increment_partial : forall lower upper increment, increment <> 0 -> / 2 <= (upper - lower) / increment -> exists n l, (1 <= n)%nat /\ nearest_nat ((upper - lower) / increment) n /\ evenly lower upper n l /\
  (forall fuel, (S n < fuel)%nat -> elements_R (range_by lower upper increment) fuel = Some (map Some l)) /\
  (forall m, (upper - lower) / increment = INR m -> m = n /\ forall k, (k <= n)%nat -> nth_error l k = Some (lower + INR k * increment)).
Proof. exact by_assembled. Qed.
Print Assumptions C118_increment_partial.
(** what it means to be evenly spaced: both ends are reached exactly, nothing is outside, and the order is strict *)
Theorem C118_ends : forall lower upper n l, (1 <= n)%nat -> evenly lower upper n l ->
  nth_error l 0 = Some lower /\ nth_error l n = Some upper /\
  (lower <= upper -> forall x, In x l -> lower <= x <= upper) /\
  (lower < upper -> forall i j x y, (i < j)%nat -> nth_error l i = Some x -> nth_error l j = Some y -> x < y).
Proof. exact evenly_facts. Qed.
Print Assumptions C118_ends.
Example C118_case : exists l, length l = 5%nat /\ nth_error l 1 = Some (1 / 4) /\ elements_R (range_steps 0 1 5) 6 = Some (map Some l).
Proof. destruct (C118_steps 0 1 5 ltac:(lia)) as (l & [L E] & F). exists l. split; [exact L|]. split; [rewrite E by lia; cbn; f_equal; lra|apply (F 6%nat); lia]. Qed.
Example C118_increment_case : / 2 <= (1 - 0) / (1 / 10). Proof. lra. Qed.

(** one step only: the element is 0/0 *)
Theorem C118_single_refuted : exists lower upper, forall fuel, (2 < fuel)%nat -> elements_R (range_steps lower upper 1) fuel = Some [None].
Proof. exact (ex_intro _ 0 (ex_intro _ 1 (one_step 0 1))). Qed.
Print Assumptions C118_single_refuted.
(** an increment in the wrong direction: the loop does not end *)
Theorem C118_direction_refuted : exists lower upper increment, lower <> upper /\ increment <> 0 /\ forall fuel, elements_R (range_by lower upper increment) fuel = None.
Proof. exact endless. Qed.
Print Assumptions C118_direction_refuted.
(** size() is not the number of elements *)
Theorem C118_size_refuted : exists r l n, (forall fuel, (10 < fuel)%nat -> elements_R r fuel = Some l) /\ range_size r = Ok n /\ n <> length l.
Proof. exact size_short. Qed.
Print Assumptions C118_size_refuted.
(** it++ does not give the old position *)
Theorem C118_postfix_refuted : (exists r step, snd (post_increment r step) <> step /\ fst (post_increment r step) = step + 1) /\
  forall lower upper n step, snd (post_increment (range_steps lower upper n) step) = IZR n - 2.
Proof. split; [exact post_increment_wrong|]. intros lower upper n step. unfold post_increment, range_steps. cbn [snd fr_max_step]. rewrite minus_IZR. ring. Qed.
Print Assumptions C118_postfix_refuted.
Close Scope R_scope.

(** ** C119 in single precision the loop ends, every element computed directly from its number, up to 2^24 elements *)
Theorem C119_float_partial : forall lower upper steps, (1 <= steps)%nat -> (Z.of_nat steps <= 2 ^ 24)%Z -> exists l, length l = steps /\
  (forall fuel, (steps < fuel)%nat -> elements_32 (range_steps_32 lower upper (Z.of_nat steps)) fuel = Some l) /\
  forall k, (k < steps)%nat -> nth_error l k = Some (f32_add lower (f32_div (f32_mul (f32_of_Z (Z.of_nat k)) (f32_sub upper lower)) (f32_of_Z (Z.of_nat steps - 1)))).
Proof. exact float_assembled. Qed.
Print Assumptions C119_float_partial.
Example C119_float_case : option_map (@length f32) (elements_32 (range_steps_32 (f32_of_Z 0) (f32_of_Z 1) 10) 20) = Some 10. Proof. vm_compute. reflexivity. Qed.
(** every element is within a few units in the last place of its ideal value, however many elements come before it *)
Theorem C119_float_close_partial : forall lower upper steps k, is_finite lower = true -> is_finite upper = true -> (Rabs (B2R lower) <= 2 ^ 98)%R -> (Rabs (B2R upper) <= 2 ^ 98)%R ->
  (2 <= steps)%nat -> (Z.of_nat steps <= 2 ^ 24)%Z -> (k < steps)%nat -> exists l x,
  (forall fuel, (steps < fuel)%nat -> elements_32 (range_steps_32 lower upper (Z.of_nat steps)) fuel = Some l) /\ nth_error l k = Some x /\ is_finite x = true /\
  (Rabs (B2R x - (B2R lower + INR k * ((B2R upper - B2R lower) / INR (steps - 1)))) <= (Rabs (B2R lower) + Rabs (B2R upper)) / 2 ^ 21 + / 2 ^ 147)%R.
Proof. exact float_close. Qed.
Print Assumptions C119_float_close_partial.
Example C119_float_close_case : (Rabs (B2R (f32_of_Z 1)) <= 2 ^ 98)%R.
Proof. rewrite (proj1 (of_Z_exact 1 ltac:(lia))). rewrite Rabs_pos_eq by lra. apply pow_R1_Rle. lra. Qed.
Theorem C119_float_endless_refuted : exists lower upper steps, (0 < steps < 2 ^ 31)%Z /\ forall fuel, elements_32 (range_steps_32 lower upper steps) fuel = None.
Proof. exact float_endless. Qed.
Print Assumptions C119_float_endless_refuted.

(** ** C120 tables of functions *)
Open Scope R_scope.
Theorem C120_evaluate : forall (f : R -> R) lower upper increment, increment <> 0 -> / 2 <= (upper - lower) / increment -> exists n l, nearest_nat ((upper - lower) / increment) n /\ evenly lower upper n l /\
  forall fuel, (S n < fuel)%nat -> evaluate_function neq_R inc_R val_R (option_map f) 0 (range_by lower upper increment) fuel = Some (map (fun x => Some (f x)) l).
Proof. exact evaluate_assembled. Qed.
Print Assumptions C120_evaluate.
Example C120_case : / 2 <= (1 - 0) / (1 / 3) /\ 1 / 3 <> 0. Proof. split; lra. Qed.

(** ** C121 plots: nothing is written outside the picture, and it shows the functions *)
Theorem C121_plot_partial : forall huge tiny fns x_min x_max w h lo hi, fns <> [] -> (2 <= w)%nat -> (1 <= h)%nat -> (Z.of_nat w <= 2 ^ 30)%Z -> (Z.of_nat h <= 2 ^ 30)%Z -> x_min < x_max ->
  let values := values_plotted fns w x_min x_max in
  least values lo -> greatest (tiny :: values) hi -> lo < hi -> hi <= huge ->
  Rabs ((INR h - 1) * lo / (hi - lo)) <= 2 ^ 30 -> Rabs ((INR w - 1) * x_min / (x_max - x_min)) <= 2 ^ 30 ->
  exists lines zy zx row, console_plot huge tiny fns x_min x_max (Z.of_nat w) (Z.of_nat h) = Ok lines /\ length lines = h /\ (forall s, In s lines -> length s = w) /\
  row_for h lo hi 0 zy /\ column_for w x_min x_max 0 zx /\
  (forall y, In y values -> (row y < h)%nat /\ row_for h lo hi y (Z.of_nat (row y))) /\
  forall r c, (r < h)%nat -> (c < w)%nat ->
    (forall i f, nth_error fns i = Some f -> row (f (sample w x_min x_max c)) = r ->
      (forall j g, (i < j)%nat -> nth_error fns j = Some g -> row (g (sample w x_min x_max c)) <> r) -> cell lines r c = Some (symbol i)) /\
    ((forall f, In f fns -> row (f (sample w x_min x_max c)) <> r) -> cell lines r c = Some (background h zy zx (Rleb x_min 0 && Rleb 0 x_max) r c)).
Proof. exact plot_assembled. Qed.
Print Assumptions C121_plot_partial.
Example C121_plot_case : exists lines, console_plot 1000 (1 / 1000) [fun x => x] (-1) 1 3 3 = Ok lines /\ length lines = 3%nat.
Proof.
  assert (V : values_plotted [fun x => x] 3 (-1) 1 = [-1; 0; 1]) by (unfold values_plotted, sample; cbn; repeat f_equal; lra).
  destruct (C121_plot_partial 1000 (1 / 1000) [fun x => x] (-1) 1 3 3 (-1) 1) as (lines & _ & _ & _ & E & L & _).
  - discriminate.
  - lia.
  - lia.
  - lia.
  - lia.
  - lra.
  - rewrite V. split; [cbn; auto|]. cbn. intros y [<-|[<-|[<-|[]]]]; lra.
  - rewrite V. split; [cbn; auto|]. cbn. intros y [<-|[<-|[<-|[<-|[]]]]]; lra.
  - lra.
  - lra.
  - cbn [INR]. unfold Rabs. destruct (Rcase_abs _); lra.
  - cbn [INR]. unfold Rabs. destruct (Rcase_abs _); lra.
  - exists lines. split; [exact E|exact L].
Qed.
(** a constant positive function: division by zero, converted to int *)
Theorem C121_constant_refuted : exists f x_min x_max w h, x_min < x_max /\ (2 <= w)%Z /\ (2 <= h)%Z /\ forall huge tiny, tiny < 1 < huge -> console_plot huge tiny [f] x_min x_max w h = UB.
Proof. exact plot_constant. Qed.
Print Assumptions C121_constant_refuted.
(** a rising function far from zero: the row of zero does not fit an int *)
Theorem C121_far_refuted : exists f x_min x_max w h, x_min < x_max /\ (2 <= w)%Z /\ (2 <= h)%Z /\ (forall x y, x < y -> f x < f y) /\
  forall huge tiny, tiny < 1 -> 2000000000000 < huge -> console_plot huge tiny [f] x_min x_max w h = UB.
Proof. exact plot_far. Qed.
Print Assumptions C121_far_refuted.
Close Scope R_scope.
