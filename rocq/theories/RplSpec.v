(** Values between and beyond regular samples; independent of the model. *)
From Coq Require Import ZArith Reals.
From Flocq Require Import Core.
Local Open Scope R_scope.
(** the sample from which a position is continued: the last one before it that has a next one, or the first *)
Definition left_sample (n : nat) (t : R) : nat := Z.to_nat (Z.max 0 (Z.min (Zfloor t) (Z.of_nat n - 2))).
(** the line through [a] at position [k] and [b] at the next one *)
Definition on_line (k : nat) (a b t : R) : R := (1 - (t - INR k)) * a + (t - INR k) * b.
