(** Weighted means of what was added since the last reset; independent of the model. *)
From Coq Require Import List Reals.
Import ListNotations.
Local Open Scope R_scope.
Inductive average_call (N : Type) := Add (v w : N) | Reset.
Arguments Add {N}. Arguments Reset {N}.
(** what was added since the last reset *)
Fixpoint added {N} (acc : list (N * N)) (os : list (average_call N)) : list (N * N) :=
  match os with [] => acc | Add v w :: r => added (acc ++ [(v, w)]) r | Reset :: r => added [] r end.
Section Sums.
  Context {N : Type} (val : N -> R).
  Definition weights (l : list (N * N)) : R := fold_right (fun p s => val (snd p) + s) 0 l.
  Definition weighted (l : list (N * N)) : R := fold_right (fun p s => val (snd p) * val (fst p) + s) 0 l.
  Definition weighted_abs (l : list (N * N)) : R := fold_right (fun p s => val (snd p) * Rabs (val (fst p)) + s) 0 l.
End Sums.
