(** What a set of flags is: a predicate on flag numbers, and how each operation changes it. *)
From Coq Require Import List Arith Bool.
Import ListNotations.

Inductive flag_op :=
| FSet (i : nat)                     (** set( i ) *)
| FSetTo (i : nat) (v : bool)        (** set( i, v ) *)
| FClear (i : nat)                   (** clear< i >() *)
| FToggle (i : nat)                  (** toggle( i ) *)
| FSetList (l : list nat)            (** set( { ... } ) *)
| FSetListTo (l : list nat) (v : bool) (** set( { ... }, v ) *)
| FClearAll.                         (** clear() *)

Definition op_flags (o : flag_op) : list nat :=
  match o with
  | FSet i | FSetTo i _ | FClear i | FToggle i => [i]
  | FSetList l | FSetListTo l _ => l
  | FClearAll => []
  end.

(** flag [f] after the operation, given the flags before *)
Definition flag_after (o : flag_op) (before : nat -> bool) (f : nat) : bool :=
  match o with
  | FSet i => if f =? i then true else before f
  | FSetTo i v => if f =? i then v else before f
  | FClear i => if f =? i then false else before f
  | FToggle i => if f =? i then negb (before f) else before f
  | FSetList l => if existsb (Nat.eqb f) l then true else before f
  | FSetListTo l v => if existsb (Nat.eqb f) l then v else before f
  | FClearAll => false
  end.

Fixpoint flags_after (ops : list flag_op) (before : nat -> bool) : nat -> bool :=
  match ops with
  | [] => before
  | o :: t => flags_after t (flag_after o before)
  end.
