(** What the generic container functions are meant to do. *)
From Coq Require Import List Arith.
Import ListNotations.

Section Spec.
Context {A : Type}.
(** [i] is the first position, not before [from], whose element satisfies [P]. *)
Definition first_match (P : A -> Prop) (l : list A) (from i : nat) : Prop :=
  from <= i /\ (exists x, nth_error l i = Some x /\ P x) /\ (forall j x, from <= j < i -> nth_error l j = Some x -> ~ P x).
(** No element from position [from] on satisfies [P]. *)
Definition no_match (P : A -> Prop) (l : list A) (from : nat) : Prop := forall j x, from <= j -> nth_error l j = Some x -> ~ P x.
(** The number of positions with an element satisfying the test. *)
Definition positions (p : A -> bool) (l : list A) : list nat :=
  List.filter (fun i => match nth_error l i with Some x => p x | None => false end) (seq 0 (length l)).
(** Cells [at_ .. at_+n-1] of [new] hold what [f] makes of cells [from .. from+n-1] of [old]; all other cells are as in [old]. *)
Definition moved (f : A -> A) (old new : list A) (from at_ n : nat) : Prop :=
  length new = length old /\
  (forall i, i < n -> nth_error new (at_ + i) = option_map f (nth_error old (from + i))) /\
  (forall j, j < at_ \/ at_ + n <= j -> nth_error new j = nth_error old j).
End Spec.
