(** What is promised about numbers in floating point, in terms of real numbers: the precision, the magnitudes in question, and exact interpolation and means. *)
From Coq Require Import List ZArith Reals Sorting.Sorted.
From Flocq Require Import Core IEEE754.BinarySingleNaN.
Import ListNotations.
Local Open Scope R_scope.

Section Numbers.
  Context {prec emax : Z}.
  Notation num := (binary_float prec emax).
  (** half a unit in the last place of 1, and half the smallest positive number *)
  Definition unit_error : R := bpow radix2 (- prec).
  Definition tiny : R := bpow radix2 (3 - emax - prec - 1).
  (** finite, and not more than a quarter of the largest power of two *)
  Definition ordinary (a : num) : Prop := is_finite a = true /\ Rabs (B2R a) <= bpow radix2 (emax - 3).
  Definition ordinary_point (p : num * num) : Prop := ordinary (fst p) /\ ordinary (snd p).
  (** points by increasing first coordinate *)
  Definition curve (points : list (num * num)) : Prop := Forall ordinary_point points /\ StronglySorted (fun p q => B2R (fst p) < B2R (fst q)) points.
  (** [v] at [x] on the straight line from [p] to [q] *)
  Definition on_line (p q : num * num) (x v : R) : Prop :=
    (v - B2R (snd p)) * (B2R (fst q) - B2R (fst p)) = (x - B2R (fst p)) * (B2R (snd q) - B2R (snd p)).
  Definition sum (vs : list num) : R := fold_right Rplus 0 (map (fun v => B2R v) vs).
  Definition sum_abs (vs : list num) : R := fold_right Rplus 0 (map (fun v => Rabs (B2R v)) vs).
End Numbers.
Arguments unit_error : clear implicits.
Arguments tiny : clear implicits.
