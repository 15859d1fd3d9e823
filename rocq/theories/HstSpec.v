(** What differences and first-order filters give for a history of inputs, in terms of real numbers. *)
From Coq Require Import List ZArith Reals.
From Flocq Require Import Core IEEE754.BinarySingleNaN.
From Verif Require Import DblSpec.
Import ListNotations.
Local Open Scope R_scope.

(** between each number and the one before it *)
Fixpoint differences (previous : R) (l : list R) : list R := match l with [] => [] | v :: r => (v - previous) :: differences v r end.
(** inputs with the time they last: Euler steps of x' = rate (v - x), and its exact solution *)
Fixpoint euler (rate x : R) (steps : list (R * R)) : R := match steps with [] => x | (v, dt) :: r => euler rate (x + dt * rate * (v - x)) r end.
Fixpoint decay (rate x : R) (steps : list (R * R)) : R := match steps with [] => x | (v, dt) :: r => decay rate (v + (x - v) * exp (- (rate * dt))) r end.

Section Numbers.
  Context {prec emax : Z}.
  Notation num := (binary_float prec emax).
  Definition within (M : R) (a : num) : Prop := is_finite a = true /\ Rabs (B2R a) <= M.
  Definition step_value (s : num * num) : R * R := (B2R (fst s), B2R (snd s)).
  (** std::exp up to an error *)
  Definition exp_works (fexp : num -> num) (err : R) : Prop :=
    forall a, is_finite a = true -> B2R a <= 0 -> is_finite (fexp a) = true /\ 0 <= B2R (fexp a) <= 1 /\ Rabs (B2R (fexp a) - exp (B2R a)) <= err.
  (** error of one step, for numbers up to M *)
  Definition fast_error (M : R) : R := 15 * unit_error prec * M + (4 * M + 2) * tiny prec emax.
  Definition accurate_error (M err L : R) : R := 4 * M * (err + unit_error prec * L + tiny prec emax) + 13 * unit_error prec * M + 2 * tiny prec emax.
End Numbers.
Arguments fast_error : clear implicits.
Arguments accurate_error : clear implicits.
