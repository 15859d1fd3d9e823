(** Theorems about the generic container functions, filtered views and zipping. *)
From Coq Require Import List Arith Bool Lia.
From Verif Require Import Base CtSpec CtModel CtProofs.
Import ListNotations.

(** C97: find_if yields the first match, or the end if there is none *)
Theorem C97_find_if : forall A (pred : A -> bool) l, let i := find_if l pred in
  (i < length l -> first_match (fun x => pred x = true) l 0 i) /\ (i < length l \/ i = length l /\ no_match (fun x => pred x = true) l 0).
Proof. exact @find_if_assembled. Qed.
Print Assumptions C97_find_if.
(** C97: find yields the first occurrence, or the end if there is none *)
Theorem C97_find : forall A (eqb : A -> A -> bool), (forall x y, eqb x y = true <-> x = y) -> forall l e, let i := find eqb l e in
  (In e l -> first_match (fun x => x = e) l 0 i) /\ (~ In e l -> i = length l).
Proof. exact @find_assembled. Qed.
Print Assumptions C97_find.
(** C97: find_index_if and find_index yield the first match from the given index on, or no_index if there is none; an index beyond the end is fine *)
Theorem C97_find_index_if : forall A (pred : A -> bool) l from, exists r, find_index_if l pred from = Ok r /\
  match r with Some i => first_match (fun x => pred x = true) l from i | None => no_match (fun x => pred x = true) l from end.
Proof. exact @find_index_if_assembled. Qed.
Print Assumptions C97_find_index_if.
Theorem C97_find_index : forall A (eqb : A -> A -> bool), (forall x y, eqb x y = true <-> x = y) -> forall l e from, exists r, find_index eqb l e from = Ok r /\
  match r with Some i => first_match (fun x => x = e) l from i | None => no_match (fun x => x = e) l from end.
Proof. exact @find_index_assembled. Qed.
Print Assumptions C97_find_index.
(** C97: without repeated elements, searching on behind a find finds nothing *)
Theorem C97_find_again : forall A (eqb : A -> A -> bool), (forall x y, eqb x y = true <-> x = y) -> forall l e i,
  find_index eqb l e 0 = Ok (Some i) -> NoDup l -> find_index eqb l e (S i) = Ok None.
Proof. exact @find_index_twice_assembled. Qed.
Print Assumptions C97_find_again.
(** C97: find_ref_if refers to the first match, and throws if there is none *)
Theorem C97_find_ref : forall A (pred : A -> bool) l,
  ((exists x, In x l /\ pred x = true) -> exists i, find_ref_if l pred = Ok i /\ first_match (fun x => pred x = true) l 0 i) /\
  ((forall x, In x l -> pred x = false) -> find_ref_if l pred = Throw).
Proof. exact @find_ref_assembled. Qed.
Print Assumptions C97_find_ref.
(** C97: any_of, none_of, contains_if, contains *)
Theorem C97_tests : forall A (pred : A -> bool) l,
  (any_of l pred = true <-> exists x, In x l /\ pred x = true) /\ (none_of l pred = true <-> forall x, In x l -> pred x = false) /\
  (contains_if l pred = true <-> exists x, In x l /\ pred x = true).
Proof. exact @tests_assembled. Qed.
Print Assumptions C97_tests.
Theorem C97_contains : forall A (eqb : A -> A -> bool), (forall x y, eqb x y = true <-> x = y) -> forall l e, contains eqb l e = true <-> In e l.
Proof. exact @contains_assembled. Qed.
Print Assumptions C97_contains.
(** C97: count_if and count count the positions that match *)
Theorem C97_count_if : forall A (pred : A -> bool) l, count_if l pred = length (positions pred l) /\ (count_if l pred = 0 <-> forall x, In x l -> pred x = false).
Proof. exact @count_assembled. Qed.
Print Assumptions C97_count_if.
Theorem C97_count : forall A (eqb : A -> A -> bool) l e, count eqb l e = length (positions (fun x => eqb x e) l).
Proof. exact @count_e_assembled. Qed.
Print Assumptions C97_count.
(** C97: for_each visits every element once, in order; back_index is the index of the last element *)
Theorem C97_for_each : forall A (l log : list A), for_each l (fun x s => s ++ [x]) log = log ++ l.
Proof. exact @for_each_assembled. Qed.
Print Assumptions C97_for_each.
Theorem C97_back_index : forall A (l : list A), (l = [] -> back_index l = None) /\ (forall l' x, l = l' ++ [x] -> exists i, back_index l = Some i /\ nth_error l i = Some x).
Proof. exact @back_index_assembled. Qed.
Print Assumptions C97_back_index.
Example C97_case : (forall x y, Nat.eqb x y = true <-> x = y) /\ find Nat.eqb [3; 1; 4; 1; 5] 1 = 1 /\ find_index Nat.eqb [3; 1; 4; 1; 5] 1 2 = Ok (Some 3) /\
  find_index Nat.eqb [3; 1; 4; 1; 5] 9 7 = Ok None /\ find_ref_if [3; 1; 4] (Nat.ltb 3) = Ok 2 /\ find_ref_if [3; 1; 4] (Nat.ltb 4) = Throw /\
  count Nat.eqb [3; 1; 4; 1; 5] 1 = 2 /\ positions (Nat.eqb 1) [3; 1; 4; 1; 5] = [1; 3] /\ NoDup [3; 1; 4] /\ back_index [3; 1] = Some 1.
Proof.
  split; [intros x y; apply Nat.eqb_eq|]. repeat split. repeat constructor; cbn; lia.
Qed.

(** C98: copying within valid memory gives each target cell the (converted) old value of its source cell and leaves all others alone, provided the target does not start inside the rest of the source; running out of the memory is undefined *)
Theorem C98_copy_partial : forall A (cast : A -> A) mem ib ie ob, ib <= ie -> ie <= length mem -> ob <= length mem ->
  (ob + (ie - ib) <= length mem -> ob <= ib \/ ie <= ob -> exists mem', copy cast mem ib ie ob = Ok (mem', ob + (ie - ib)) /\ moved cast mem mem' ib ob (ie - ib)) /\
  (length mem < ob + (ie - ib) -> copy cast mem ib ie ob = UB).
Proof. exact @copy_assembled. Qed.
Print Assumptions C98_copy_partial.
(** Otherwise the first elements get repeated. *)
Theorem C98_copy_refuted : exists (mem mem' : list nat) ib ie ob, copy (fun x => x) mem ib ie ob = Ok (mem', ob + (ie - ib)) /\ ~ moved (fun x => x) mem mem' ib ob (ie - ib).
Proof. exists [1; 2; 3], [1; 1; 1], 0, 2, 1. split; [reflexivity|]. intros (_ & H & _). specialize (H 1 (Nat.lt_1_2)). discriminate. Qed.
Print Assumptions C98_copy_refuted.
(** C98: the same for a copy run by the target range *)
Theorem C98_copy_to_range_partial : forall A (cast : A -> A) mem ib ob oe, ob <= oe -> oe <= length mem -> ib <= length mem ->
  (ib + (oe - ob) <= length mem -> ob <= ib \/ ib + (oe - ob) <= ob -> exists mem', copy_to_range cast mem ib ob oe = Ok (mem', ib + (oe - ob)) /\ moved cast mem mem' ib ob (oe - ob)) /\
  (length mem < ib + (oe - ob) -> copy_to_range cast mem ib ob oe = UB).
Proof. exact @copy_to_range_assembled. Qed.
Print Assumptions C98_copy_to_range_partial.
(** C98: copying one container to another one throws if the target is too small, and otherwise fills its front and leaves the rest and everything else as it was *)
Theorem C98_copy_container : forall A (cast : A -> A) mem source ssize target tsize, source + ssize <= length mem -> target + tsize <= length mem ->
  (tsize < ssize -> copy_container cast mem source ssize target tsize = Throw) /\
  (ssize <= tsize -> source + ssize <= target \/ target + tsize <= source ->
     exists mem', copy_container cast mem source ssize target tsize = Ok mem' /\ moved cast mem mem' source target ssize).
Proof. exact @copy_container_assembled. Qed.
Print Assumptions C98_copy_container.
Example C98_case : copy (fun x => x) [1; 2; 3; 4; 5] 2 5 1 = Ok ([1; 3; 4; 5; 5], 4) /\ copy_container (fun x => x + 10) [1; 2; 3; 4; 5] 0 2 2 3 = Ok [1; 2; 11; 12; 5] /\
  copy_container (fun x => x) [1; 2; 3; 4; 5] 2 3 0 2 = Throw /\ copy_to_range (fun x => x) [1; 2; 3; 4; 5] 3 0 2 = Ok ([4; 5; 3; 4; 5], 5).
Proof. repeat split. Qed.

(** C99: going through a filtered view ends, and visits exactly the elements that pass, in order *)
Theorem C99_view : forall A (pred : A -> bool) l, exists fuel, view_visit pred fuel l = Some (Ok (List.filter pred l)).
Proof. exact @view_assembled. Qed.
Print Assumptions C99_view.
(** C99: zipping pairs equal positions as long as the second container is not shorter; otherwise it reads past its end *)
Theorem C99_zip_partial : forall A B (l1 : list A) (l2 : list B), (length l1 <= length l2 -> zip l1 l2 = Ok (combine l1 l2)) /\ (length l2 < length l1 -> zip l1 l2 = UB).
Proof. exact zip_assembled. Qed.
Print Assumptions C99_zip_partial.
Theorem C99_zip_refuted : exists l1 l2 : list nat, zip l1 l2 <> Ok (combine l1 l2).
Proof. exists [1; 2], [3]. discriminate. Qed.
Print Assumptions C99_zip_refuted.
Example C99_case : view_visit (Nat.ltb 2) 6 [3; 1; 4; 1; 5] = Some (Ok [3; 4; 5]) /\ view_visit (Nat.ltb 2) 3 [1; 2] = Some (Ok []) /\ zip [1; 2] [true; false; true] = Ok [(1, true); (2, false)].
Proof. repeat split. Qed.
