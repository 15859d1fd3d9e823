(** Interpolation: what it is for; independent of the models. *)
From Coq Require Import List Arith Bool ZArith Reals.
From Verif Require Import Base.
Import ListNotations.
Local Open Scope R_scope.

(** the points that were inserted, in order: [y] is the last value given for [x] *)
Definition last_value (pts : list (R * R)) (x y : R) : Prop := exists l1 l2, pts = l1 ++ (x, y) :: l2 /\ ~ In x (map fst l2).
(** [x1] and [x2] are abscissas with no other abscissa in between *)
Definition neighbours (pts : list (R * R)) (x1 x2 : R) : Prop :=
  In x1 (map fst pts) /\ In x2 (map fst pts) /\ x1 < x2 /\ forall x, In x (map fst pts) -> x <= x1 \/ x2 <= x.
Definition smallest (pts : list (R * R)) (x : R) : Prop := In x (map fst pts) /\ forall x', In x' (map fst pts) -> x <= x'.
Definition largest (pts : list (R * R)) (x : R) : Prop := In x (map fst pts) /\ forall x', In x' (map fst pts) -> x' <= x.
(** keys in increasing order, as a std::map stores them *)
Fixpoint sorted_keys (m : list (R * R)) : Prop := match m with (k1, _) :: (((k2, _) :: _) as r) => k1 < k2 /\ sorted_keys r | _ => True end.
(** the same for integer keys *)
Fixpoint increasing_keys {V} (m : list (Z * V)) : Prop := match m with [] => True | (k, _) :: r => (forall e, In e r -> (k < fst e)%Z) /\ increasing_keys r end.
