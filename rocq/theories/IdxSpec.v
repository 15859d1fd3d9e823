(** Vocabulary for typed indices and collections. *)
From Coq Require Import List Arith NArith ZArith.
Import ListNotations.

(** an index refers to position [n]; an index that refers to nothing *)
Inductive meaning := Position (n : N) | Nothing.
(** positions a 32-bit index can refer to; the largest number means nothing *)
Definition index_limit : N := 2 ^ 32 - 1.
Definition means (raw : N) : meaning := if (raw =? index_limit)%N then Nothing else Position raw.
Definition consecutive (b : N) (l : list N) : Prop := forall k x, nth_error l k = Some x -> x = (b + N.of_nat k)%N.
