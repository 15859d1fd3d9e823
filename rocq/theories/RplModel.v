(** Model of /repo/xo/numerical/regular_piecewise_linear_function.h for T = float and T = double. *)
From Coq Require Import List Arith Bool ZArith.
From Flocq Require Import Core IEEE754.BinarySingleNaN.
From Verif Require Import Base DblModel FrmModel.
Import ListNotations.

Section Numbers.
  Context (prec emax : Z) (Hp : Prec_gt_0 prec) (He : Prec_lt_emax prec emax).
  Notation num := (binary_float prec emax).
  Notation add := (DblModel.add prec emax Hp He).
  Notation sub := (DblModel.sub prec emax Hp He).
  Notation mul := (DblModel.mul prec emax Hp He).
  Notation div := (DblModel.div prec emax Hp He).
  Notation const := (DblModel.const prec emax Hp He).
  (** regular_piecewise_linear_function.h 32-34 *)
  Record regular := { x_base : num; x_step : num; samples : list num }.
  (** 12-19; N is a constant, and integers become numbers before they are multiplied *)
  Definition make_regular (N : nat) (x_min x_max : num) (fn : num -> num) : regular :=
    let step := div (sub x_max x_min) (const (Z.of_nat N - 1) 0) in
    {| x_base := x_min; x_step := step; samples := map (fun i => fn (add x_min (mul (const (Z.of_nat i) 0) step))) (seq 0 N) |}.
  (** 23: the position of x among the samples *)
  Definition position (f : regular) (x : num) : num := div (sub x (x_base f)) (x_step f).
  (** 21-29; the conversion to int is undefined for numbers that do not fit *)
  Definition evaluate (f : regular) (x : num) : outcome num :=
    let x_idx := position f x in
    do i <- cast prec emax (- 2 ^ 31) (2 ^ 31 - 1) (FrmModel.floor prec emax He x_idx);
    let hi := (Z.of_nat (length (samples f)) - 2)%Z in
    let xlb := if (i <? 0)%Z then 0%Z else if (hi <? i)%Z then hi else i in
    let wub := sub x_idx (const xlb 0) in
    do a <- vec_get (samples f) (Z.to_nat xlb); do b <- vec_get (samples f) (Z.to_nat xlb + 1);
    Ok (add (mul (sub (const 1 0) wub) a) (mul wub b)).
End Numbers.
