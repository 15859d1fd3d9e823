(** Sizes of filter coefficients; independent of the models. *)
From Coq Require Import List Reals.
Import ListNotations.
Local Open Scope R_scope.
Definition abs_sum (l : list R) : R := fold_right (fun v s => Rabs v + s) 0 l.
From Verif Require Import SigSpec.
(** what the recurrence gives for element [n] from the elements before it, and the size of its terms *)
Definition recurrence (b0 : R) (b a u y : list R) (n : nat) : R := b0 * nth n u 0 + total (map (fun i => nth i b 0 * before u n i + nth i a 0 * before y n i) (seq 0 (length b))).
Definition recurrence_size (b0 : R) (b a u y : list R) (n : nat) : R := Rabs (b0 * nth n u 0) + total (map (fun i => Rabs (nth i b 0 * before u n i) + Rabs (nth i a 0 * before y n i)) (seq 0 (length b))).
