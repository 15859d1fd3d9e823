(** What a memoized function promises; independent of the model of memoize. *)
From Coq Require Import List Arith.
From Verif Require Import Base.
Import ListNotations.

Section Spec.
  Context {K V : Type}.
  (** evaluations of the wrapped function, in order, with argument and outcome *)
  Definition evaluations := list (K * outcome V).

  (** once an evaluation for an argument succeeded, there is no other one for it *)
  Definition evaluated_once (l : evaluations) : Prop :=
    forall i j k v o, nth_error l i = Some (k, Ok v) -> nth_error l j = Some (k, o) -> j <= i.

  Definition is_ok (e : K * outcome V) : bool := match snd e with Ok _ => true | _ => false end.
  Definition successes (l : evaluations) : evaluations := filter is_ok l.
End Spec.

(** a function that may ask for other values of the memoized function while it runs *)
Inductive fprog (K V : Type) : Type :=
| FRet (v : V)
| FFail
| FAsk (k : K) (cont : V -> fprog K V).
Arguments FRet {K V} v.
Arguments FFail {K V}.
Arguments FAsk {K V} k cont.

Section Pure.
  Context {K V : Type} (func : K -> fprog K V).
  (** the value of the function without memoization; [value_in n]: with calls nested at most [n] deep *)
  Fixpoint run_pure (ask : K -> outcome V) (p : fprog K V) : outcome V :=
    match p with
    | FRet v => Ok v
    | FFail => Throw
    | FAsk k cont => match ask k with Ok v => run_pure ask (cont v) | o => o end
    end.
  Fixpoint value_in (n : nat) (k : K) : outcome V :=
    match n with O => UB | S n => run_pure (value_in n) (func k) end.
  (** the function called with [k] ends with [o], a value or an exception *)
  Definition ends_with (k : K) (o : outcome V) : Prop := o <> UB /\ exists n, value_in n k = o.
End Pure.
