(** Specification vocabulary for keyed containers; independent of the models. *)
From Coq Require Import List Arith Bool.
Import ListNotations.

(** decidable equality test *)
Definition eq_test {K : Type} (keq : K -> K -> bool) : Prop :=
  forall a b, keq a b = true <-> a = b.

(** position [i] holds the first entry of [l] with key [k], with value [v] *)
Definition first_at {K V} (l : list (K * V)) (k : K) (i : nat) (v : V) : Prop :=
  nth_error l i = Some (k, v) /\
  forall j k' v', j < i -> nth_error l j = Some (k', v') -> k' <> k.

(** [l1] is a prefix of [l2] *)
Definition prefix_of {A} (l1 l2 : list A) : Prop := exists r, l2 = l1 ++ r.

(** [i] is where [k] first occurs in the sequence [ks] with later repetitions of earlier keys dropped *)
Section FirstOccurrence.
  Context {K : Type} (keq : K -> K -> bool).
  Definition first_occurrences (ks : list K) : list K :=
    fold_left (fun acc k => if existsb (keq k) acc then acc else acc ++ [k]) ks [].
End FirstOccurrence.

(** calls that store a value under a key *)
Inductive imap_op (K V : Type) : Type :=
| IAssign (k : K) (v : V)    (* m[k] = v *)
| IInsert (k : K) (v : V)    (* m.insert( { k, v } ) *)
| ITouch (k : K).            (* m[k] *)
Arguments IAssign {K V}. Arguments IInsert {K V}. Arguments ITouch {K V}.

Definition imap_key {K V} (o : imap_op K V) : K :=
  match o with IAssign k _ | IInsert k _ | ITouch k => k end.

(** last value stored under [k] by the calls [ops]; a touch creates the default value *)
Definition last_stored {K V} (keq : K -> K -> bool) (vdef : V) (ops : list (imap_op K V)) (k : K) : option V :=
  fold_left (fun acc o =>
    if keq (imap_key o) k then
      match o with
      | IAssign _ v | IInsert _ v => Some v
      | ITouch _ => match acc with Some v => Some v | None => Some vdef end
      end
    else acc) ops None.

(** label_vector: calls and the record of label assignments that took effect since the last clear() *)
Inductive label_op (L : Type) : Type :=
| LAdd (l : L)               (* v.add( l ) *)
| LSet (i : nat) (l : L)     (* v.set( i, l ) *)
| LResize (n : nat)
| LClear.
Arguments LAdd {L}. Arguments LSet {L}. Arguments LResize {L}. Arguments LClear {L}.

(** factory: calls *)
Inductive fac_op (N C : Type) : Type :=
| FRegister (n : N) (c : C)
| FUnregister (n : N).
Arguments FRegister {N C}. Arguments FUnregister {N C}.

(** registry contents: a call that is an error has no effect *)
Definition fac_step {N C} (neq : N -> N -> bool) (f : N -> option C) (o : fac_op N C) : N -> option C :=
  match o with
  | FRegister n c => match f n with Some _ => f | None => fun x => if neq x n then Some c else f x end
  | FUnregister n => fun x => if neq x n then None else f x
  end.
Definition fac_after {N C} (neq : N -> N -> bool) (ops : list (fac_op N C)) : N -> option C :=
  fold_left (fac_step neq) ops (fun _ => None).

(** Size and record of effective label assignments (label, position), oldest first, since the last clear():
    add and set of a label that is already recorded, or of a position out of range, are rejected. *)
Section LabelLog.
  Context {L : Type} (leq : L -> L -> bool).
  Definition recorded (log : list (L * nat)) (l : L) : bool := existsb (fun e => leq (fst e) l) log.
  Definition label_log_step (st : nat * list (L * nat)) (o : label_op L) : nat * list (L * nat) :=
    let (n, log) := st in
    match o with
    | LAdd l => if recorded log l then st else (S n, log ++ [(l, n)])
    | LSet i l => if (i <? n) && negb (recorded log l) then (n, log ++ [(l, i)]) else st
    | LResize m => if n <=? m then (m, log) else st
    | LClear => (0, [])
    end.
  Definition label_log (ops : list (label_op L)) : nat * list (L * nat) :=
    fold_left label_log_step ops (0, []).
End LabelLog.
