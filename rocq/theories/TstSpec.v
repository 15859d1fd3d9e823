(** Vocabulary for test cases: what happens while a test function runs. *)
From Coq Require Import String List Arith ZArith.
Import ListNotations.

(** a check of an expression, which holds, does not hold, throws a std::exception or throws something else; and exceptions thrown
    outside of checks, of either kind *)
Inductive event :=
| CheckTrue (text : string) | CheckFalse (text : string) | CheckRaises (text what : string) | CheckEscapes (text : string)
| Raise (what : string) | Escape.

Definition stops (e : event) : bool := match e with CheckEscapes _ | Raise _ | Escape => true | _ => false end.
(** what is executed of a test function: nothing after the first exception that leaves a statement *)
Fixpoint executed (t : list event) : list event :=
  match t with [] => [] | e :: r => e :: (if stops e then [] else executed r) end.

Definition holds_check (e : event) : bool := match e with CheckTrue _ => true | _ => false end.
Definition broken_check (e : event) : bool := match e with CheckFalse _ | CheckRaises _ _ => true | _ => false end.
(** all checks hold and no exception is thrown *)
Definition clean (t : list event) : bool := forallb holds_check (executed t).
(** no exception other than a std::exception *)
Definition contained (t : list event) : Prop := forall e, In e (executed t) -> match e with CheckEscapes _ | Escape => False | _ => True end.
(** exceptions that say what they are *)
Definition telling (t : list event) : Prop := forall w, In (Raise w) (executed t) -> w <> ""%string.
Definition how_many (p : event -> bool) (t : list event) : Z := Z.of_nat (length (filter p (executed t))).
Fixpoint sum_over {A} (f : A -> Z) (l : list A) : Z := match l with [] => 0%Z | x :: r => (f x + sum_over f r)%Z end.
