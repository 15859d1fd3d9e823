(** What settings with doubles keep; independent of the model. *)
From Coq Require Import Reals.
From Flocq Require Import IEEE754.BinarySingleNaN.
From Verif Require Import FltSpec.

(** numbers smaller than the smallest normal number, other than zero *)
Definition subnormal (d : binary_float 53 1024) : Prop := (B2R d <> 0 /\ Rabs (B2R d) < powerRZ 2 (-1022))%R.
(** what remains of a number that was written with six digits *)
Definition six_of (d y : binary_float 53 1024) : Prop :=
  (is_finite d = true -> is_finite y = true /\ (Rabs (B2R y - B2R d) <= / 100000 * Rabs (B2R d))%R /\ (six_digits (B2R d) -> y = d)) /\
  (is_finite d = false -> y = d).
