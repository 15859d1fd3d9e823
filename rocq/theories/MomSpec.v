(** What sums, means, variances, covariances, medians and polynomials are, in terms of real numbers, and the contracts of the standard algorithms for floating-point numbers. *)
From Coq Require Import List Arith Bool ZArith Reals Sorting.Sorted Permutation.
From Flocq Require Import Core IEEE754.BinarySingleNaN.
From Verif Require Import DblSpec.
Import ListNotations.
Local Open Scope R_scope.

Definition real_sum (l : list R) : R := fold_right Rplus 0 l.
(** c0 + c1 x + c2 x^2 + ... *)
Fixpoint poly (cs : list R) (x : R) : R := match cs with [] => 0 | c :: r => c + x * poly r x end.
Section Numbers.
  Context {prec emax : Z}.
  Notation num := (binary_float prec emax).
  Definition all_finite (vs : list num) : Prop := Forall (fun v => is_finite v = true) vs.
  Definition few {A} (vs : list A) : Prop := (Z.of_nat (length vs) <= 2 ^ (prec - 1))%Z.
  Definition mean (vs : list num) : R := sum vs / INR (length vs).
  (** bound for the error of a mean *)
  Definition mean_error (vs : list num) : R := (2 * INR (length vs) + 2) * unit_error prec * (sum_abs vs / INR (length vs)) + tiny prec emax.
  Definition variance (vs : list num) : R := real_sum (map (fun v => (B2R v - mean vs) ^ 2) vs) / INR (length vs).
  Definition covariance (xs ys : list num) : R := real_sum (map (fun p => (B2R (fst p) - mean xs) * (B2R (snd p) - mean ys)) (combine xs ys)) / INR (length xs).
  (** the mean product of the distances to the means *)
  Definition joint_spread (xs ys : list num) (ex ey : R) : R := real_sum (map (fun p => (Rabs (B2R (fst p) - mean xs) + ex) * (Rabs (B2R (snd p) - mean ys) + ey)) (combine xs ys)) / INR (length xs).
  (** small enough for squares *)
  Definition squarable (vs : list num) : Prop := all_finite vs /\ sum_abs vs <= bpow radix2 (emax / 2 - 4).
  Definition integers (vs : list num) : Prop := Forall (fun v => exists z : Z, B2R v = IZR z) vs.
  Definition values (vs : list num) : list R := map (fun v => B2R v) vs.
  (** std::nth_element and std::partial_sort_copy on finite numbers *)
  Definition nth_element_works (nth_element : list num -> nat -> list num) : Prop :=
    forall l n, all_finite l -> (n < length l)%nat -> Permutation (nth_element l n) l /\
      exists v, nth_error (nth_element l n) n = Some v /\ (forall w, In w (firstn n (nth_element l n)) -> B2R w <= B2R v) /\ (forall w, In w (skipn (S n) (nth_element l n)) -> B2R v <= B2R w).
  Definition partial_sort_works (partial_sort_copy : list num -> list num -> list num) : Prop :=
    forall l out, all_finite l -> exists s, Permutation s l /\ StronglySorted (fun a b => B2R a <= B2R b) s /\ partial_sort_copy l out = firstn (length out) s ++ skipn (length l) out.
End Numbers.
Arguments few prec {A} vs.
