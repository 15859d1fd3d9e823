(** Numerical functions: what they are for; independent of the models. *)
From Coq Require Import List Arith Bool NArith ZArith Reals Lra.
From Coq Require Import Floats.SpecFloat.
From Verif Require Import Base.
Import ListNotations.

(** the values that [ok] holds of are ordered by < and <=; different values can be equivalent (as -0 and +0) *)
Record ordered {T : Type} (ok : T -> Prop) (ltb leb : T -> T -> bool) : Prop := {
  or_irrefl : forall a, ok a -> ltb a a = false;
  or_trans : forall a b c, ok a -> ok b -> ok c -> ltb a b = true -> ltb b c = true -> ltb a c = true;
  or_negtrans : forall a b c, ok a -> ok b -> ok c -> ltb a b = false -> ltb b c = false -> ltb a c = false;
  or_le : forall a b, ok a -> ok b -> leb a b = negb (ltb b a)
}.
(** IEEE 754 double precision numbers *)
Definition double : Type := spec_float.
Definition finite_double (x : double) : bool := match x with S754_zero _ | S754_finite _ _ _ => true | _ => false end.
Definition not_nan (x : double) : Prop := x <> S754_nan.

(** between in either direction *)
Definition between {T} (leb : T -> T -> bool) (a x b : T) : Prop := (leb a x = true /\ leb x b = true) \/ (leb b x = true /\ leb x a = true).

(** the number of digits of [v] in a base: the least d with v < base^d, at least 1 *)
Definition digits_in (base v : N) (d : nat) : Prop := (0 < d)%nat /\ (v < base ^ N.of_nat d)%N /\ (d = 1%nat \/ base ^ N.of_nat (d - 1) <= v)%N.

Local Open Scope R_scope.
Definition within (a x b : R) : Prop := a <= x <= b.
Definition is_int (x : R) : Prop := exists z : Z, x = IZR z.
(** x and y differ by a multiple of p *)
Definition same_phase (p x y : R) : Prop := exists z : Z, x = y + IZR z * p.
(** the point (x, y) lies on the line through (x1, y1) and (x2, y2) *)
Definition on_line (x1 y1 x2 y2 x y : R) : Prop := (y - y1) * (x2 - x1) = (y2 - y1) * (x - x1).
Definition sum_R (l : list R) : R := fold_right Rplus 0 l.
Definition mean_R (l : list R) : R := sum_R l / INR (length l).
