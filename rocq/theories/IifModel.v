(** Model of /repo/xo/numerical/filter.h 8-36 for T = float and T = double. *)
From Coq Require Import List Arith Bool ZArith.
From Flocq Require Import Core IEEE754.BinarySingleNaN.
From Verif Require Import Base DblModel.
Import ListNotations.
Section Numbers.
  Context (prec emax : Z) (Hp : Prec_gt_0 prec) (He : Prec_lt_emax prec emax).
  Notation num := (binary_float prec emax).
  Notation add := (DblModel.add prec emax Hp He).
  Notation mul := (DblModel.mul prec emax Hp He).
  Notation zero := (DblModel.const prec emax Hp He 0 0).
  (** filter.h 31-35; the arrays have N elements *)
  Record filter := Filter { c_b0 : num; c_x : list num; c_y : list num; c_b : list num; c_a : list num }.
  (** filter.h 14-16: the new value; N, the template argument, is the length of the arrays *)
  Definition output (f : filter) (x : num) : outcome num :=
    ofor_up (length (c_b f)) 0 (fun i y => do b <- vec_get (c_b f) i; do v <- vec_get (c_x f) i; do a <- vec_get (c_a f) i; do w <- vec_get (c_y f) i; Ok (add y (add (mul b v) (mul a w)))) (mul (c_b0 f) x).
  (** filter.h 19-22: the loop that shifts the values, from i = m + 1 = N - 1 down to 1 *)
  Definition shift_loop (n : nat) (s : list num * list num) : outcome (list num * list num) :=
    ofor_down (n - 1) (fun m s => do v <- vec_get (fst s) m; do x <- vec_set (fst s) (m + 1) v; do w <- vec_get (snd s) m; do y <- vec_set (snd s) (m + 1) w; Ok (x, y)) s.
  (** filter.h 13-27 *)
  Definition filter_step (f : filter) (x : num) : outcome (filter * num) :=
    do y <- output f x; do s <- shift_loop (length (c_b f)) (c_x f, c_y f); do xs <- vec_set (fst s) 0 x; do ys <- vec_set (snd s) 0 y; do r <- vec_get ys 0; Ok (Filter (c_b0 f) xs ys (c_b f) (c_a f), r).
  (** the filter called for each element of a list *)
  Fixpoint filter_run (f : filter) (us : list num) : outcome (list num) := match us with [] => Ok [] | x :: r => do fy <- filter_step f x; do l <- filter_run (fst fy) r; Ok (snd fy :: l) end.
  (** filter.h 12, with the coefficients then set *)
  Definition make_filter (b0 : num) (b a : list num) : filter := Filter b0 (repeat zero (length b)) (repeat zero (length b)) b a.
End Numbers.
