(** Signals in time: what delays, filters and accumulators are for; independent of the models. *)
From Coq Require Import List Arith Bool ZArith Reals.
From Verif Require Import Base.
Import ListNotations.
Local Open Scope R_scope.

(** the sample [i] (taken at time [i * dt]) is the one nearest to time [t] *)
Definition nearest (dt t : R) (i : nat) : Prop := (INR i - 1 / 2) * dt <= t < (INR i + 1 / 2) * dt.
(** the value of the input [x] at multiple number [j] of the window [w]: that of the nearest sample, and the initial value for time 0 *)
Definition sampled (w dt init : R) (x : nat -> R) (j : nat) (v : R) : Prop := j = 0%nat /\ v = init \/ (1 <= j)%nat /\ exists i, nearest dt (INR j * w) i /\ v = x i.
Definition total (l : list R) : R := fold_right Rplus 0 l.
(** a signal that has value [v] for [dt] seconds, for each of [steps]: the area under it up to time [t] *)
Fixpoint area (steps : list (R * R)) (t : R) : R :=
  match steps with
  | [] => 0
  | (v, dt) :: r => if Rle_dec t dt then v * t else v * dt + area r (t - dt)
  end.
(** mean of the signal in the [j]-th window of length [w] *)
Definition window_mean (steps : list (R * R)) (w : R) (j : nat) : R := (area steps (INR j * w) - area steps ((INR j - 1) * w)) / w.
(** the [i + 1]-th value before number [n], 0 before the beginning *)
Definition before (l : list R) (n i : nat) : R := if (S i <=? n)%nat then nth (n - S i) l 0 else 0.
(** the output of a recursive filter with these coefficients *)
Definition difference_equation (b0 : R) (b a : list R) (u y : list R) : Prop :=
  length y = length u /\
  forall n, (n < length u)%nat -> nth n y 0 = b0 * nth n u 0 + total (map (fun i => nth i b 0 * before u n i + nth i a 0 * before y n i) (seq 0 (length b))).
Definition combine_signals (p q : R) (u v : list R) : list R := map (fun uv => p * fst uv + q * snd uv) (combine u v).
(** sum of [c_i x^i] *)
Definition power_sum (c : list R) (x : R) : R := total (map (fun i => nth i c 0 * x ^ i) (seq 0 (length c))).
