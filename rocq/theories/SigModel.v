(** Models of delayer.h, filter.h, filter_1st_order.h, delta.h, average.h, polynomial.h and functions.h in /repo/xo/numerical. T and float are real numbers: rounding is not modelled. *)
From Coq Require Import List Arith Bool ZArith Reals.
From Verif Require Import Base SigSpec.
Import ListNotations.
Local Open Scope R_scope.

(** delayer.h 36-39 *)
Record delayer := Delayer { d_window : R; d_time : R; d_idx : nat; d_data : list R }.
(** delayer.h 12-17; data_{ init_value } initialises the first element, the others are T() *)
Definition make_delayer (n : nat) (delay init : R) : outcome delayer :=
  if Rlt_dec 0 delay then Ok (Delayer (delay / INR (n - 1)) 0 0 (init :: repeat 0 (n - 1))) else Throw.
(** delayer.h 19-26 *)
Definition delayer_add (d : delayer) (value dt : R) : outcome delayer :=
  let time := d_time d + dt in
  if Rlt_dec (d_window d) (time + 0.5 * dt) then
    let idx := ((d_idx d + 1) mod length (d_data d))%nat in
    do data <- vec_set (d_data d) idx value; Ok (Delayer (d_window d) (time - d_window d) idx data)
  else Ok (Delayer (d_window d) time (d_idx d) (d_data d)).
(** delayer.h 28-31 *)
Definition delayed_value (d : delayer) : outcome R :=
  let n := length (d_data d) in let w := d_time d / d_window d in
  do v2 <- vec_get (d_data d) ((d_idx d + n + 2) mod n); do v1 <- vec_get (d_data d) ((d_idx d + n + 1) mod n);
  Ok (w * v2 + (1 - w) * v1).
(** add_sample for each of a list of values and time steps *)
Fixpoint delayer_adds (d : delayer) (l : list (R * R)) : outcome delayer := match l with [] => Ok d | (v, dt) :: r => do d' <- delayer_add d v dt; delayer_adds d' r end.

(** delayer.h 73-77 *)
Record smooth_delayer := Smooth { s_window : R; s_time : R; s_inter : R; s_idx : nat; s_data : list R }.
(** delayer.h 45-51 *)
Definition make_smooth (n : nat) (delay init : R) : outcome smooth_delayer :=
  if Rlt_dec 0 delay then Ok (Smooth (delay / (INR n - 0.5)) 0 0 0 (init :: repeat 0 (n - 1))) else Throw.
(** delayer.h 53-63 *)
Definition smooth_add (d : smooth_delayer) (value dt : R) : outcome smooth_delayer :=
  let time := s_time d + dt in let win := s_window d in
  if Rle_dec win time then
    let inter := s_inter d + (win - time + dt) * value in
    let idx := ((s_idx d + 1) mod length (s_data d))%nat in
    do data <- vec_set (s_data d) idx (inter / win);
    let time2 := time - win in Ok (Smooth win time2 (time2 * value) idx data)
  else Ok (Smooth win time (s_inter d + value * dt) (s_idx d) (s_data d)).
(** delayer.h 65-68 *)
Definition smooth_value (d : smooth_delayer) : outcome R :=
  let n := length (s_data d) in let w := s_time d / s_window d in
  do v2 <- vec_get (s_data d) ((s_idx d + n + 2) mod n); do v1 <- vec_get (s_data d) ((s_idx d + n + 1) mod n);
  Ok (w * v2 + (1 - w) * v1).
Fixpoint smooth_adds (d : smooth_delayer) (l : list (R * R)) : outcome smooth_delayer := match l with [] => Ok d | (v, dt) :: r => do d' <- smooth_add d v dt; smooth_adds d' r end.

(** filter.h 31-35; the arrays have N elements *)
Record iir := Iir { f_b0 : R; f_x : list R; f_y : list R; f_b : list R; f_a : list R }.
(** filter.h 19-22: the loop that shifts the values *)
Definition shift_values (l : list R) : list R := fold_left (fun l i => list_set l i (nth (i - 1) l 0)) (rev (seq 1 (length l - 1))) l.
(** filter.h 13-27, for N > 0 *)
Definition iir_step (f : iir) (x : R) : iir * R :=
  let y := fold_left (fun y i => y + (nth i (f_b f) 0 * nth i (f_x f) 0 + nth i (f_a f) 0 * nth i (f_y f) 0)) (seq 0 (length (f_b f))) (f_b0 f * x) in
  (Iir (f_b0 f) (list_set (shift_values (f_x f)) 0 x) (list_set (shift_values (f_y f)) 0 y) (f_b f) (f_a f), y).
(** the filter called for each element of a list *)
Fixpoint iir_run (f : iir) (u : list R) : list R := match u with [] => [] | x :: r => let (f', y) := iir_step f x in y :: iir_run f' r end.
(** filter.h 12, with the coefficients then set *)
Definition make_iir (b0 : R) (b a : list R) : iir := Iir b0 (repeat 0 (length b)) (repeat 0 (length b)) b a.
(** the filter after the calls *)
Definition iir_after (f : iir) (u : list R) : iir := fold_left (fun f x => fst (iir_step f x)) u f.
(** filter.h 29 *)
Definition iir_velocity (f : iir) : R := nth 0 (f_y f) 0 - nth 1 (f_y f) 0.
(** filter.h 38-50 *)
Definition butterworth (cutoff_ratio : R) : iir :=
  let ita := 1 / tan (PI * cutoff_ratio) in
  let q := sqrt 2 in
  let b0 := 1 / (1 + q * ita + ita * ita) in
  make_iir b0 [2 * b0; b0] [2 * (ita * ita - 1) * b0; - (1 - q * ita + ita * ita) * b0].

(** filter_1st_order.h 14-16: the new value *)
Definition update_accurate (rate old value dt : R) : R := value + (old - value) * exp (- rate * dt).
(** filter_1st_order.h 18-20 *)
Definition update_fast (rate old value dt : R) : R := old + dt * rate * (value - old).
(** delta.h 10-14: the result and the new state *)
Definition delta_step (previous new_value : R) : R * R := (new_value - previous, new_value).
Fixpoint delta_run (previous : R) (l : list R) : list R := match l with [] => [] | v :: r => let (res, p) := delta_step previous v in res :: delta_run p r end.
(** average.h 10-13 and 19-20 *)
Record average_acc := Avg { tot_v : R; tot_w : R }.
Definition avg_empty : average_acc := Avg 0 0.
Definition avg_add (a : average_acc) (value w : R) : average_acc := Avg (tot_v a + w * value) (tot_w a + w).
(** average.h 14 *)
Definition avg_get (a : average_acc) : R := if Rlt_dec 0 (tot_w a) then tot_v a / tot_w a else 0.
(** average.h 15 *)
Definition avg_is_empty (a : average_acc) : bool := if Req_EM_T (tot_w a) 0 then true else false.

(** polynomial.h 16-21; the array has at least two elements *)
Definition polynomial_eval (coeff : list R) (v : R) : R :=
  fst (fold_left (fun '(result, factor) c => (result + factor * c, factor * v)) (tl coeff) (hd 0 coeff, v)).
(** polynomial.h 39 *)
Definition intersect_y (offset slope y : R) : R := (y - offset) / slope.
(** functions.h 24-29 *)
Definition minimum_jerk (x : R) : R := let x3 := x * x * x in let x4 := x3 * x in let x5 := x4 * x in 6 * x5 - 15 * x4 + 10 * x3.
