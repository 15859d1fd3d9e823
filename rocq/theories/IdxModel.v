(** Models of /repo/xo/utility/index.h, with its default index type uint32, container/collection_ic.h and container/collection.h. *)
From Coq Require Import List Arith Bool NArith ZArith.
From Verif Require Import Base AssocModel IdxSpec.
Import ListNotations.
Open Scope N_scope.

(** ** index.h *)
Definition two32 : N := 2 ^ 32.
(** 59 *)
Definition invalid_index_value : N := two32 - 1.
(** 30 *)
Definition max_value : N := invalid_index_value - 1.
(** 15, 20, 22, 23 *)
Definition index_default : N := invalid_index_value.
Definition index_of_value (v : N) : N := v.
Definition index_of_size (i : N) : N := if i <=? max_value then i else invalid_index_value.
Definition index_of_int (i : Z) : N := if (0 <=? i)%Z && (Z.to_N i mod two32 <=? max_value) then Z.to_N i mod two32 else invalid_index_value.
(** 17 and 27: the new value and what is left in the source; the same object for both: it ends up reset *)
Definition index_move (source : N) : N * N := (source, invalid_index_value).
(** 31 *)
Definition index_bool (i : N) : bool := negb (i =? invalid_index_value).
(** 38-40: [size] is a size_t *)
Definition index_zero : N := index_of_value 0.
Definition index_end (size : N) : N := index_of_value (size mod two32).
Definition index_back (size : N) : N := index_of_value ((size mod two32 + two32 - 1) mod two32).
(** 42-43, 45-46; the second component is the value of the expression *)
Definition index_add (i ofs : N) : N := (i + ofs) mod two32.
Definition index_sub (i ofs : N) : N := (i + two32 - ofs) mod two32.
Definition index_pre_inc (i : N) : N * N := let i' := index_add i 1 in (i', i').
Definition index_post_inc (i : N) : N * N := (index_add i 1, i).
(** 49-54 *)
Definition index_lt (a b : N) : bool := a <? b.
Definition index_le (a b : N) : bool := a <=? b.
Definition index_eq (a b : N) : bool := a =? b.

(** 62-74, and a range-based for loop over a span: 45, 47, 54 *)
Definition span_size (b e : N) : N := (e + two32 - b) mod two32.
Definition span_empty (b e : N) : bool := index_eq b e.
Fixpoint span_visit (fuel : nat) (b e : N) : option (list N) :=
  match fuel with
  | O => None
  | S f => if index_eq b e then Some [] else option_map (cons b) (span_visit f (fst (index_pre_inc b)) e)
  end.
Close Scope N_scope.

(** ** collections: one vector for each type; types are numbered, values of all types form [U] *)
Section Collection.
  Context {U : Type}.
  Definition coll : Type := nat -> list U.
  Definition with_vec (c : coll) (t : nat) (l : list U) : coll := fun t' => if t' =? t then l else c t'.
  Definition coll_empty : coll := fun _ => [].
  (** collection_ic.h 23-24; collection.h 22-23 *)
  Definition coll_get (c : coll) (t : nat) (i : N) : outcome U := vec_get (c t) (N.to_nat i).
  (** collection_ic.h 20-21 with 40 *)
  Definition ic_push_back (c : coll) (t : nat) (u : U) : coll * N :=
    let l := c t ++ [u] in (with_vec c t l, index_back (N.of_nat (length l))).
  (** collection_ic.h 26: the function ends without returning a value, which is undefined *)
  Definition ic_erase (c : coll) (t : nat) (i : N) : outcome (coll * N) := UB.
  (** collection_ic.h 27 *)
  Definition ic_pop_back (c : coll) (t : nat) : outcome coll :=
    match c t with [] => UB | _ => Ok (with_vec c t (removelast (c t))) end.
  (** collection_ic.h 38, collection.h 31-33: the element is given by its position in the vector *)
  Definition get_index (position : nat) : N := (N.of_nat position mod two32)%N.
  (** collection_ic.h 41-43 *)
  Definition ic_span (c : coll) (t : nat) : N * N := (0%N, index_end (N.of_nat (length (c t)))).
  (** collection_ic.h 45-47, collection.h 35-37 *)
  Definition coll_clear (c : coll) : coll := fun _ => [].
  (** collection.h 19-20, 25, 26, through handle_vector.h *)
  Definition hc_push_back (c : coll) (t : nat) (u : U) : coll * N :=
    let '(l, h) := hv_push_back two32 (c t) u in (with_vec c t l, h).
  Definition hc_erase (c : coll) (t : nat) (h : N) : outcome (coll * N) :=
    do r <- hv_erase (c t) h; Ok (with_vec c t (fst r), snd r).
  Definition hc_erase_span (c : coll) (t : nat) (b e : N) : outcome coll :=
    do l <- hv_erase_span (c t) b e; Ok (with_vec c t l).
End Collection.
Arguments coll U : clear implicits.
