(** What a profiler should report; independent of the model of profiler.cpp. *)
From Coq Require Import List ZArith Bool.
From Verif Require Import Base.
Import ListNotations.
Local Open Scope Z_scope.

(** an activation of a section: its name, clock reading at the start, activations inside it, clock reading at the end *)
Inductive act := Act (name : nat) (from : Z) (inner : list act) (till : Z).
Definition act_name (a : act) := let 'Act n _ _ _ := a in n.
Definition act_inner (a : act) := let 'Act _ _ l _ := a in l.
Definition duration (a : act) : Z := let 'Act _ f _ t := a in t - f.

(** the activations with call path [q], a list of names from the outside to the inside *)
Fixpoint acts_at (q : list nat) (l : list act) : list act :=
  match q with
  | [] => []
  | n :: q' =>
    let here := filter (fun a => act_name a =? n)%nat l in
    match q' with [] => here | _ => acts_at q' (flat_map act_inner here) end
  end.
Definition sum_of {A} (f : A -> Z) (l : list A) : Z := fold_right (fun a s => f a + s) 0 l.

(** clock readings do not run backwards *)
Inductive in_order : Z -> list act -> Z -> Prop :=
| order_none c c' : c <= c' -> in_order c [] c'
| order_more c n f l t r c' : c <= f -> in_order f l t -> in_order t r c' -> in_order c (Act n f l t :: r) c'.

(** what the profiler is told *)
Inductive prof_op := Enter (name : nat) (c : Z) | Leave (c : Z).
Fixpoint calls (a : act) : list prof_op :=
  let 'Act n f l t := a in Enter n f :: flat_map calls l ++ [Leave t].

(** time spent in an activation but not in the ones inside it *)
Definition own (a : act) : Z := duration a - sum_of duration (act_inner a).
