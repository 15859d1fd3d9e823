(** Model of /repo/xo/numerical/average.h for T = float and T = double, with any weights; add and get are in DblModel.v. *)
From Coq Require Import List Arith Bool ZArith.
From Flocq Require Import Core IEEE754.BinarySingleNaN.
From Verif Require Import Base DblModel WavSpec.
Import ListNotations.
Section Numbers.
  Context (prec emax : Z) (Hp : Prec_gt_0 prec) (He : Prec_lt_emax prec emax).
  Notation num := (binary_float prec emax).
  (** average.h 15 *)
  Definition average_empty (a : average prec emax) : bool := Beqb (tot_w _ _ a) (const prec emax Hp He 0 0).
  (** average.h 13 and 16 *)
  Definition average_step (a : average prec emax) (o : average_call num) : average prec emax :=
    match o with Add v w => average_add prec emax Hp He a v w | Reset => average_init prec emax Hp He end.
  (** average.h 10: the state after any calls on a new average *)
  Definition average_run (os : list (average_call num)) : average prec emax := fold_left average_step os (average_init prec emax Hp He).
End Numbers.
