(** Specification vocabulary for the sorted-vector containers; independent of the model. *)
From Coq Require Import List Bool Sorted.
From Verif Require Import Base.
Import ListNotations.

(** operator< is a strict total order and operator== is equality. *)
Record total_order {K : Type} (klt keq : K -> K -> bool) : Prop := {
  to_irrefl : forall a, klt a a = false;
  to_trans : forall a b c, klt a b = true -> klt b c = true -> klt a c = true;
  to_total : forall a b, klt a b = false -> klt b a = false -> a = b;
  to_eq : forall a b, keq a b = true <-> a = b
}.

(** A strict weak order, with operator== being the induced equivalence. *)
Record weak_order {T : Type} (tlt teq : T -> T -> bool) : Prop := {
  wo_irrefl : forall a, tlt a a = false;
  wo_trans : forall a b c, tlt a b = true -> tlt b c = true -> tlt a c = true;
  wo_negtrans : forall a b c, tlt a b = false -> tlt b c = false -> tlt a c = false;
  wo_eq : forall a b, teq a b = true <-> (tlt a b = false /\ tlt b a = false)
}.

(** Mutating operations of a map and their effect on a mathematical map. *)
Inductive map_op (K V : Type) : Type :=
| MAssign (k : K) (v : V)   (* m[k] = v *)
| MTouch (k : K)            (* m[k] *)
| MInsert (k : K) (v : V)   (* m.insert( { k, v } ) *)
| MErase (k : K)            (* m.erase( k ) *)
| MClear.                   (* m.clear() *)
Arguments MAssign {K V}. Arguments MTouch {K V}. Arguments MInsert {K V}.
Arguments MErase {K V}. Arguments MClear {K V}.

Section Map.
  Context {K V : Type} (keq : K -> K -> bool) (vdef : V).
  Definition math_map := K -> option V.
  Definition upd (f : math_map) (k : K) (o : option V) : math_map :=
    fun x => if keq x k then o else f x.
  Definition map_step (f : math_map) (o : map_op K V) : math_map :=
    match o with
    | MAssign k v => upd f k (Some v)
    | MTouch k => match f k with Some _ => f | None => upd f k (Some vdef) end
    | MInsert k v => match f k with Some _ => f | None => upd f k (Some v) end
    | MErase k => upd f k None
    | MClear => fun _ => None
    end.
  Definition map_after (ops : list (map_op K V)) : math_map :=
    fold_left map_step ops (fun _ => None).
End Map.

(** Mutating operations of a set. *)
Inductive set_op (K : Type) : Type :=
| SInsert (k : K)
| SErase (k : K)
| SClear.
Arguments SInsert {K}. Arguments SErase {K}. Arguments SClear {K}.

Section Set_.
  Context {K : Type} (keq : K -> K -> bool).
  Definition math_set := K -> bool.
  Definition set_step (f : math_set) (o : set_op K) : math_set :=
    match o with
    | SInsert k => fun x => keq x k || f x
    | SErase k => fun x => negb (keq x k) && f x
    | SClear => fun _ => false
    end.
  Definition set_after (ops : list (set_op K)) : math_set :=
    fold_left set_step ops (fun _ => false).
End Set_.

(** strictly increasing list *)
Definition increasing {K} (klt : K -> K -> bool) (l : list K) : Prop :=
  StronglySorted (fun a b => klt a b = true) l.

(** non-decreasing list *)
Definition nondecreasing {T} (tlt : T -> T -> bool) (l : list T) : Prop :=
  StronglySorted (fun a b => tlt b a = false) l.

(** History of a multiset, elements kept in order of insertion. *)
Inductive bag_op (T : Type) : Type :=
| BInsert (e : T)
| BRemove (e : T).
Arguments BInsert {T}. Arguments BRemove {T}.

Section Bag.
  Context {T : Type} (teq : T -> T -> bool).
  Definition bag_step (l : list T) (o : bag_op T) : list T :=
    match o with
    | BInsert e => l ++ [e]
    | BRemove e => filter (fun x => negb (teq x e)) l
    end.
  Definition bag_after (init : list T) (ops : list (bag_op T)) : list T :=
    fold_left bag_step ops init.
End Bag.
