(** Statistics: what regression, medians and averages are; independent of the models. *)
From Coq Require Import List Arith Bool ZArith Reals Sorted Permutation.
From Verif Require Import Base SigSpec.
Import ListNotations.
Local Open Scope R_scope.

Definition ascending (l : list R) : Prop := StronglySorted Rle l.
(** [m] is the middle of the sorted data, or the mean of the two middle elements *)
Definition is_median (l : list R) (m : R) : Prop :=
  exists s, Permutation s l /\ ascending s /\
    if Nat.odd (length l) then nth_error s (length l / 2) = Some m
    else exists a b, nth_error s (length l / 2 - 1) = Some a /\ nth_error s (length l / 2) = Some b /\ m = (a + b) / 2.
Definition mean_of (l : list R) (m : R) : Prop := m * INR (length l) = total l.
(** sum of the squared residuals of the line with this offset and slope *)
Definition sse (offset slope : R) (xs ys : list R) : R := total (map (fun p => (snd p - (offset + slope * fst p)) ^ 2) (combine xs ys)).
(** contracts of the standard algorithms *)
Definition nth_element_contract (nth_element : list R -> nat -> list R) : Prop :=
  forall l n, (n < length l)%nat -> Permutation (nth_element l n) l /\
    exists v, nth_error (nth_element l n) n = Some v /\ (forall w, In w (firstn n (nth_element l n)) -> w <= v) /\ (forall w, In w (skipn (S n) (nth_element l n)) -> v <= w).
Definition partial_sort_contract (partial_sort_copy : list R -> list R -> list R) : Prop :=
  forall l out, exists s, Permutation s l /\ ascending s /\ partial_sort_copy l out = firstn (length out) s ++ skipn (length l) out.
Definition strict_weak {A} (lt : A -> A -> bool) : Prop :=
  (forall a, lt a a = false) /\ (forall a b c, lt a b = true -> lt b c = true -> lt a c = true) /\
  (forall a b c, lt a b = false -> lt b a = false -> lt b c = false -> lt c b = false -> lt a c = false /\ lt c a = false).
Definition sort_contract {A} (lt : A -> A -> bool) (sort : list A -> list A) : Prop :=
  strict_weak lt -> forall l, Permutation (sort l) l /\ StronglySorted (fun a b => lt b a = false) (sort l).
