(** Common vocabulary of all models. *)
From Coq Require Import List Arith Bool Lia ZArith NArith.
From Coq Require Import ZifyBool ZifyNat ZifyN.
Import ListNotations.

(** Outcome of a C++ call.
    [Ok a]  : normal return;
    [Throw] : a C++ exception leaves the call (xo_error / xo_assert, /repo/xo/system/assert.h 6-36,
              throw std::runtime_error in the default configuration);
    [UB]    : undefined behaviour (out-of-bounds access, missing return value, ...). *)
Inductive outcome (A : Type) : Type :=
| Ok (a : A)
| Throw
| UB.
Arguments Ok {A} a.
Arguments Throw {A}.
Arguments UB {A}.

Definition obind {A B} (o : outcome A) (f : A -> outcome B) : outcome B :=
  match o with Ok a => f a | Throw => Throw | UB => UB end.

Definition omap {A B} (f : A -> B) (o : outcome A) : outcome B :=
  match o with Ok a => Ok (f a) | Throw => Throw | UB => UB end.

Notation "'do' x <- o ; e" := (obind o (fun x => e))
  (at level 200, x name, o at level 100, e at level 200).

(** std::vector::operator[] and iterator dereference: in range or undefined. *)
Definition vec_get {A} (l : list A) (i : nat) : outcome A :=
  match nth_error l i with Some a => Ok a | None => UB end.

(** assignment through operator[] / iterator: in range or undefined. *)
Fixpoint list_set {A} (l : list A) (i : nat) (a : A) : list A :=
  match l, i with
  | [], _ => []
  | _ :: t, O => a :: t
  | x :: t, S j => x :: list_set t j a
  end.

Definition vec_set {A} (l : list A) (i : nat) (a : A) : outcome (list A) :=
  if i <? length l then Ok (list_set l i a) else UB.

(** std::vector::insert(begin()+i, a), for i <= size. *)
Definition list_insert {A} (l : list A) (i : nat) (a : A) : list A :=
  firstn i l ++ a :: skipn i l.

(** std::vector::erase(begin()+i), for i < size. *)
Definition list_erase {A} (l : list A) (i : nat) : list A :=
  firstn i l ++ skipn (S i) l.

(** std::vector::resize(n, a). *)
Definition vec_resize {A} (l : list A) (n : nat) (a : A) : list A :=
  firstn n l ++ repeat a (n - length l).

(** std::lower_bound / std::upper_bound, as a search for the partition point of the predicate
    [before] ("element is ordered before the position searched for"): the usual halving loop
    on a range [first, first+len).  [fuel] bounds the number of halvings; [length l] suffices. *)
Fixpoint bsearch {A} (before : A -> bool) (l : list A) (fuel first len : nat) : nat :=
  match fuel with
  | O => first
  | S f =>
    match len with
    | O => first
    | S _ =>
      let half := Nat.div2 len in
      match nth_error l (first + half) with
      | None => first
      | Some x =>
        if before x then bsearch before l f (first + half + 1) (len - half - 1)
        else bsearch before l f first half
      end
    end
  end.

Definition partition_search {A} (before : A -> bool) (l : list A) : nat :=
  bsearch before l (length l) 0 (length l).

(** for ( i = first; i < first + n; ++i ) body *)
Fixpoint ofor_up {S} (n first : nat) (body : nat -> S -> outcome S) (s : S) : outcome S :=
  match n with
  | O => Ok s
  | Datatypes.S m => do s' <- body first s; ofor_up m (Datatypes.S first) body s'
  end.

(** for ( i = n; i-- > 0; ) body *)
Fixpoint ofor_down {S} (n : nat) (body : nat -> S -> outcome S) (s : S) : outcome S :=
  match n with
  | O => Ok s
  | Datatypes.S m => do s' <- body m s; ofor_down m body s'
  end.
