(** Vectors of any length, tables with rows and columns, vectors of four. *)
From Coq Require Import List Arith Reals.
Import ListNotations.
Local Open Scope R_scope.

(** Component [i]. *)
Definition comp (v : list R) (i : nat) : R := nth i v 0.
(** The sum of f 0 .. f (n-1). *)
Fixpoint sum_to (f : nat -> R) (n : nat) : R := match n with O => 0 | S m => sum_to f m + f m end.
Definition inner (u v : list R) : R := sum_to (fun i => comp u i * comp v i) (length u).
Definition magnitude (v : list R) : R := sqrt (inner v v).
(** [w] is made of [u] and [v] component by component. *)
Definition by_component (f : R -> R -> R) (u v w : list R) : Prop := length w = length u /\ forall i, (i < length u)%nat -> comp w i = f (comp u i) (comp v i).

Record vec4 := Vec4 { x4 : R; y4 : R; z4 : R; w4 : R }.
