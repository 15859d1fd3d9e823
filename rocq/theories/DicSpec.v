(** Vocabulary for lookup tables and stacked strings. *)
From Coq Require Import Ascii String List Arith.
From Verif Require Import Str.
Import ListNotations.

(** [x] is the first element of [l] that has property [P] *)
Definition first_with {A} (P : A -> Prop) (l : list A) (x : A) : Prop := exists a b, l = a ++ x :: b /\ P x /\ Forall (fun y => ~ P y) a.

(** operations on a string made of parts *)
Inductive part_op := SetTo (s : str) | Append (s : str) | RemoveLast.
(** the parts present after operations, oldest first; nothing if a part is removed when there are none *)
Definition apply_part (o : option (list str)) (op : part_op) : option (list str) :=
  match o with
  | None => None
  | Some l =>
      match op with
      | SetTo s => Some (match s with [] => [] | _ => [s] end)
      | Append s => Some (l ++ [s])
      | RemoveLast => match l with [] => None | _ => Some (removelast l) end
      end
  end.
Definition parts (ops : list part_op) : option (list str) := fold_left apply_part ops (Some []).
