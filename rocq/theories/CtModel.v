(** Models of /repo/xo/container/container_tools.h, view_if.h and zip.h.
    An iterator is a position in the list; [begin] is 0 and [end] the length. [no_index] is [None]. *)
From Coq Require Import List Arith Bool.
From Verif Require Import Base.
Import ListNotations.

Section Search.
Context {A : Type}.

(** for_each, container_tools.h 11-20: the function sees the elements from first to last; its effects are a state change. *)
Fixpoint for_each_loop {S} (rest : list A) (fn : A -> S -> S) (s : S) : S :=
  match rest with [] => s | x :: r => for_each_loop r fn (fn x s) end.
Definition for_each {S} (cont : list A) (fn : A -> S -> S) (s : S) : S := for_each_loop cont fn s.

(** find_if, container_tools.h 38-45: [it] moves from begin to end. *)
Fixpoint find_if_loop (pred : A -> bool) (rest : list A) (it : nat) : nat :=
  match rest with
  | [] => it
  | x :: r => if pred x then it else find_if_loop pred r (S it)
  end.
Definition find_if (cont : list A) (pred : A -> bool) : nat := find_if_loop pred cont 0.
(** find, 23-30: the same with [*it == e]. *)
Definition find (eqb : A -> A -> bool) (cont : list A) (e : A) : nat := find_if_loop (fun x => eqb x e) cont 0.

(** find_index_if, 48-50: [n] counts the indices left before size(). *)
Fixpoint find_index_loop (pred : A -> bool) (cont : list A) (n idx : nat) : outcome (option nat) :=
  match n with
  | O => Ok None
  | S m => do x <- vec_get cont idx; if pred x then Ok (Some idx) else find_index_loop pred cont m (S idx)
  end.
Definition find_index_if (cont : list A) (pred : A -> bool) (idx : nat) : outcome (option nat) :=
  find_index_loop pred cont (length cont - idx) idx.
(** find_index, 33-35. *)
Definition find_index (eqb : A -> A -> bool) (cont : list A) (e : A) (idx : nat) : outcome (option nat) :=
  find_index_loop (fun x => eqb x e) cont (length cont - idx) idx.

(** find_ref_if, 53-60: the reference is given by its position. *)
Fixpoint find_ref_loop (pred : A -> bool) (rest : list A) (it : nat) : outcome nat :=
  match rest with
  | [] => Throw
  | x :: r => if pred x then Ok it else find_ref_loop pred r (S it)
  end.
Definition find_ref_if (cont : list A) (pred : A -> bool) : outcome nat := find_ref_loop pred cont 0.

(** count_if, 68-70; count, 63-65. *)
Fixpoint count_loop (pred : A -> bool) (rest : list A) (c : nat) : nat :=
  match rest with
  | [] => c
  | x :: r => count_loop pred r (c + (if pred x then 1 else 0))
  end.
Definition count_if (cont : list A) (pred : A -> bool) : nat := count_loop pred cont 0.
Definition count (eqb : A -> A -> bool) (cont : list A) (e : A) : nat := count_loop (fun x => eqb x e) cont 0.

(** any_of, none_of, 73-80. *)
Definition any_of (cont : list A) (pred : A -> bool) : bool := negb (find_if cont pred =? length cont).
Definition none_of (cont : list A) (pred : A -> bool) : bool := find_if cont pred =? length cont.

(** contains_if, 88-90; contains, 83-85. *)
Fixpoint contains_loop (pred : A -> bool) (rest : list A) : bool :=
  match rest with [] => false | x :: r => if pred x then true else contains_loop pred r end.
Definition contains_if (cont : list A) (pred : A -> bool) : bool := contains_loop pred cont.
Definition contains (eqb : A -> A -> bool) (cont : list A) (e : A) : bool := contains_loop (fun x => eqb x e) cont.

(** back_index, 137. *)
Definition back_index (cont : list A) : option nat := if 0 <? length cont then Some (length cont - 1) else None.
End Search.

Section Copy.
Context {A : Type}.
Variable cast : A -> A.

(** copy_cast, container_tools.h 113-117, and copy, 93-95 (with [cast] the identity): source and target are
    positions in one memory, so that they may overlap. [n] counts the elements left in the source. *)
Fixpoint copy_loop (n : nat) (mem : list A) (ib ob : nat) : outcome (list A * nat) :=
  match n with
  | O => Ok (mem, ob)
  | S m => do x <- vec_get mem ib; do mem' <- vec_set mem ob (cast x); copy_loop m mem' (S ib) (S ob)
  end.
(** [ib] never meets [ie] if it starts behind it. *)
Definition copy (mem : list A) (ib ie ob : nat) : outcome (list A * nat) :=
  if ib <=? ie then copy_loop (ie - ib) mem ib ob else UB.

(** copy_to_range, 103-110: the same loop run by the target range; returns the source position reached. *)
Definition copy_to_range (mem : list A) (ib ob oe : nat) : outcome (list A * nat) :=
  if ob <=? oe then (do r <- copy_loop (oe - ob) mem ib ob; Ok (fst r, ib + (oe - ob))) else UB.

(** copy_container, 120-123, and copy_cast of containers, 126-129: containers are given by where they start in memory
    and their size. *)
Definition copy_container (mem : list A) (source ssize target tsize : nat) : outcome (list A) :=
  if ssize <=? tsize then (do r <- copy mem source (source + ssize) target; Ok (fst r)) else Throw.
End Copy.

Section View.
Context {A : Type}.
Variable pred : A -> bool.

(** view_if::iterator::next_match, view_if.h 17: [rest] is the part of the range from [pos_] on. *)
Fixpoint next_match (rest : list A) (pos : nat) : nat :=
  match rest with
  | [] => pos
  | x :: r => if pred x then pos else next_match r (S pos)
  end.
(** view_if.h 16, 27-28: construction moves to the first match. *)
Definition view_begin (l : list A) : nat := next_match l 0.
Definition view_end (l : list A) : nat := next_match (skipn (length l) l) (length l).
(** operator++, 18: undefined at the end. *)
Definition view_next (l : list A) (pos : nat) : outcome nat :=
  if pos <? length l then Ok (next_match (skipn (S pos) l) (S pos)) else UB.
(** for ( it = begin(); it != end(); ++it ) visit( *it ): [None] if the fuel runs out. *)
Fixpoint view_run (fuel : nat) (l : list A) (pos : nat) : option (outcome (list A)) :=
  match fuel with
  | O => None
  | S f =>
    if pos =? view_end l then Some (Ok []) else
    match vec_get l pos with
    | Ok x =>
      match view_next l pos with
      | Ok pos' => option_map (omap (cons x)) (view_run f l pos')
      | Throw => Some Throw | UB => Some UB
      end
    | Throw => Some Throw | UB => Some UB
    end
  end.
Definition view_visit (fuel : nat) (l : list A) : option (outcome (list A)) := view_run fuel l (view_begin l).
End View.

(** zipper, zip.h 7-28: the loop ends when the first iterator meets its end; the second one is not looked at. [n] counts what is
    left of the first container. *)
Fixpoint zip_loop {A B} (n : nat) (l1 : list A) (l2 : list B) (i : nat) : outcome (list (A * B)) :=
  match n with
  | O => Ok []
  | S m => do x <- vec_get l1 i; do y <- vec_get l2 i; do r <- zip_loop m l1 l2 (S i); Ok ((x, y) :: r)
  end.
Definition zip {A B} (l1 : list A) (l2 : list B) : outcome (list (A * B)) := zip_loop (length l1) l1 l2 0.
