(** Model of /repo/xo/numerical/delta.h and filter_1st_order.h for T = TimeT = float and T = TimeT = double.
    Numbers are Flocq's binary floating-point numbers of any precision, rounded to nearest even. Mixed types (T = double with TimeT = float) are not modelled; std::exp is a parameter. *)
From Coq Require Import List ZArith.
From Flocq Require Import Core IEEE754.BinarySingleNaN.
From Verif Require Import DblModel.
Import ListNotations.

Section Numbers.
  Context (prec emax : Z) (Hp : Prec_gt_0 prec) (He : Prec_lt_emax prec emax).
  Notation num := (binary_float prec emax).
  Notation add := (add prec emax Hp He).
  Notation sub := (sub prec emax Hp He).
  Notation mul := (mul prec emax Hp He).
  (** delta.h 8: the state before the first call *)
  Definition delta_init : num := const prec emax Hp He 0 0.
  (** delta.h 10-14: the result and the new state *)
  Definition delta_call (previous new_value : num) : num * num := (sub new_value previous, new_value).
  (** the results of a sequence of calls *)
  Fixpoint delta_run (previous : num) (l : list num) : list num :=
    match l with [] => [] | v :: r => let (res, p) := delta_call previous v in res :: delta_run p r end.
  (** filter_1st_order.h 18-20: the new value *)
  Definition update_fast (rate value_ value dt : num) : num := add value_ (mul (mul dt rate) (sub value value_)).
  (** filter_1st_order.h 14-16: the new value *)
  Definition update_accurate (fexp : num -> num) (rate value_ value dt : num) : num := add value (mul (sub value_ value) (fexp (mul (Bopp rate) dt))).
  (** the value after a sequence of inputs and time steps *)
  Definition run_fast (rate value_ : num) (steps : list (num * num)) : num := fold_left (fun x s => update_fast rate x (fst s) (snd s)) steps value_.
  Definition run_accurate (fexp : num -> num) (rate value_ : num) (steps : list (num * num)) : num := fold_left (fun x s => update_accurate fexp rate x (fst s) (snd s)) steps value_.
End Numbers.
