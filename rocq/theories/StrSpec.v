(** Specification vocabulary for strings; independent of the models. *)
From Coq Require Import List Arith Bool Ascii.
From Verif Require Import Base Str.
Import ListNotations.

Section ListSpecs.
  Context {A : Type}.

  (** [sub] stands at position [i] of [s] *)
  Definition occurs_at (s sub : list A) (i : nat) : Prop := exists a b, s = a ++ sub ++ b /\ length a = i.

  (** [i] is the smallest position >= [p] where [sub] occurs *)
  Definition first_occurrence (s sub : list A) (p i : nat) : Prop :=
    p <= i /\ occurs_at s sub i /\ forall j, p <= j < i -> ~ occurs_at s sub j.

  (** [is] are the first positions where [sub] occurs, in increasing order (overlaps included) *)
  Fixpoint occurrences_from (s sub : list A) (p : nat) (is : list nat) : Prop :=
    match is with
    | [] => True
    | i :: t => first_occurrence s sub p i /\ occurrences_from s sub (S i) t
    end.

  (** leftmost non-overlapping replacement of [f] by [w]; replaced text is not looked at again *)
  Inductive replaced (f w : list A) : list A -> list A -> Prop :=
  | replaced_none s : (forall i, ~ occurs_at s f i) -> replaced f w s s
  | replaced_first a b r :
      first_occurrence (a ++ f ++ b) f 0 (length a) ->
      replaced f w b r ->
      replaced f w (a ++ f ++ b) (a ++ w ++ r).

  (** [ps] are the maximal non-empty pieces of [s] without separators, in order *)
  Inductive pieces (sep : A -> Prop) : list A -> list (list A) -> Prop :=
  | pieces_end s : Forall sep s -> pieces sep s []
  | pieces_last s p : Forall sep s -> p <> [] -> Forall (fun c => ~ sep c) p -> pieces sep (s ++ p) [p]
  | pieces_cons s p c r ps :
      Forall sep s -> p <> [] -> Forall (fun c => ~ sep c) p -> sep c ->
      pieces sep (c :: r) ps -> pieces sep (s ++ p ++ c :: r) (p :: ps).

  (** [t] is [s] without its leading / trailing elements satisfying [sp] *)
  Definition trimmed_left (sp : A -> Prop) (s t : list A) : Prop :=
    exists l, s = l ++ t /\ Forall sp l /\ (forall c r, t = c :: r -> ~ sp c).
  Definition trimmed_right (sp : A -> Prop) (s t : list A) : Prop :=
    exists l, s = t ++ l /\ Forall sp l /\ (forall c r, t = r ++ [c] -> ~ sp c).
End ListSpecs.

(** membership in a set of characters given as a C string *)
Definition one_of (set : str) (c : ascii) : Prop := In c set.

(** [d] between consecutive elements *)
Fixpoint join {A} (d : list A) (l : list (list A)) : list A :=
  match l with
  | [] => []
  | [x] => x
  | x :: t => x ++ d ++ join d t
  end.

(** bytes 1 .. 127: 7-bit characters other than NUL *)
Definition seven_bit (c : ascii) : Prop := 1 <= nat_of_ascii c <= 127.
