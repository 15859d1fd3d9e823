(** Properties of typed indices, index spans and collections. *)
From Coq Require Import List Arith NArith ZArith Lia.
From Verif Require Import Base AssocModel IdxSpec IdxModel IdxProofs.
Import ListNotations.

(** C122: a typed index refers to the position it is made from, or to nothing if that position cannot be represented; moving from an
    index leaves it referring to nothing; stepping and offsets move the position, and first/last/one-past-last of a container are right. *)
Theorem C122_make : means index_default = Nothing /\
  (forall n, means (index_of_size n) = if (n <? index_limit)%N then Position n else Nothing) /\
  (forall z, (- 2 ^ 31 <= z < 2 ^ 31)%Z -> means (index_of_int z) = if (z <? 0)%Z then Nothing else Position (Z.to_N z)) /\
  (forall i, index_bool i = true <-> means i <> Nothing) /\
  (forall i, index_move i = (i, index_default)).
Proof. exact from_assembled. Qed.
Print Assumptions C122_make.
Example C122_make_ex : means (index_of_size 17) = Position 17 /\ means (index_of_size (2 ^ 40)) = Nothing /\ means (index_of_int (-3)) = Nothing.
Proof. repeat split. Qed.

Theorem C122_step : forall i n, (i < 2 ^ 32)%N -> means i = Position n ->
  means (fst (index_pre_inc i)) = (if (n + 1 <? index_limit)%N then Position (n + 1) else Nothing) /\ snd (index_pre_inc i) = fst (index_pre_inc i) /\
  fst (index_post_inc i) = fst (index_pre_inc i) /\ snd (index_post_inc i) = i /\
  (forall k, (n + k < index_limit)%N -> means (index_add i k) = Position (n + k)) /\
  (forall k, (k <= n)%N -> means (index_sub i k) = Position (n - k)).
Proof. exact step_assembled. Qed.
Print Assumptions C122_step.
Example C122_step_ex : means (index_of_size 7) = Position 7 /\ means (fst (index_pre_inc (index_of_size 7))) = Position 8 /\
  means (index_sub (index_of_size 7) 5) = Position 2 /\ means (fst (index_pre_inc (2 ^ 32 - 2))) = Nothing.
Proof. repeat split. Qed.

(** an index that refers to nothing comes to refer to the first element when it is incremented *)
Theorem C122_nothing_stays_nothing_refuted : exists i, means i = Nothing /\ means (fst (index_pre_inc i)) = Position 0.
Proof. exact invalid_step. Qed.
Print Assumptions C122_nothing_stays_nothing_refuted.

(** comparing indices compares the positions; an index that refers to nothing comes behind all others *)
Theorem C122_order : forall a b, (a < 2 ^ 32)%N -> (b < 2 ^ 32)%N ->
  (forall m n, means a = Position m -> means b = Position n -> (index_lt a b = true <-> (m < n)%N) /\ (index_le a b = true <-> (m <= n)%N) /\ (index_eq a b = true <-> m = n)) /\
  (forall m, means a = Position m -> means b = Nothing -> index_lt a b = true /\ index_le a b = true /\ index_eq a b = false /\ index_lt b a = false /\ index_le b a = false).
Proof. exact order_assembled. Qed.
Print Assumptions C122_order.
Example C122_order_ex : means (index_of_size 3) = Position 3 /\ means (index_of_size 5) = Position 5 /\ means index_default = Nothing /\ index_lt (index_of_size 3) (index_of_size 5) = true.
Proof. repeat split. Qed.

Theorem C122_container : forall n, (n <= index_limit - 1)%N ->
  means index_zero = Position 0 /\ means (index_end n) = Position n /\ means (index_back n) = (if (n =? 0)%N then Nothing else Position (n - 1)).
Proof. exact container_assembled. Qed.
Print Assumptions C122_container.
Example C122_container_ex : means (index_back 5) = Position 4 /\ means (index_back 0) = Nothing /\ means (index_end 5) = Position 5.
Proof. repeat split. Qed.

(** for containers with more elements than an index can count, the last-element index refers to another element *)
Theorem C122_large_container_refuted : exists n, (n < 2 ^ 64)%N /\ means (index_back n) <> Position (n - 1) /\ means (index_back n) <> Nothing.
Proof. exact huge_container. Qed.
Print Assumptions C122_large_container_refuted.

(** C123: a loop over a span of indices visits each index from its begin up to, not including, its end, once and in order;
    size and emptiness agree with that. *)
Theorem C123_span : forall b e, (b <= e)%N -> (e < 2 ^ 32)%N -> exists l, consecutive b l /\ N.of_nat (length l) = (e - b)%N /\
  (forall fuel, length l < fuel -> span_visit fuel b e = Some l) /\ span_size b e = N.of_nat (length l) /\ (span_empty b e = true <-> l = []).
Proof. exact span_assembled. Qed.
Print Assumptions C123_span.
Example C123_span_ex : span_visit 4 5 8 = Some [5; 6; 7]%N /\ span_size 5 8 = 3%N /\ span_empty 5 8 = false.
Proof. repeat split. Qed.

(** a span whose begin is beyond its end is not empty: the loop wraps around and visits the index that refers to nothing *)
Theorem C123_reversed_refuted : exists b e l, (e < b)%N /\ (b < 2 ^ 32)%N /\ (forall fuel, length l < fuel -> span_visit fuel b e = Some l) /\
  exists i, In i l /\ means i = Nothing.
Proof. exact span_reversed. Qed.
Print Assumptions C123_reversed_refuted.

(** C124: in a collection of several types, adding an element returns an index for it, keeps every index handed out before, and
    touches only the vector of its own type; so do removing the last element and erasing; clear empties all. *)
Theorem C124_push : forall (U : Type) (c : coll U) t u, (N.of_nat (length (c t)) < index_limit)%N ->
  forall c' h, ic_push_back c t u = (c', h) \/ hc_push_back c t u = (c', h) ->
  coll_get c' t h = Ok u /\ means h = Position (N.of_nat (length (c t))) /\
  (forall t' i x, coll_get c t' i = Ok x -> coll_get c' t' i = Ok x) /\ (forall t', t' <> t -> c' t' = c t').
Proof. exact @push_assembled. Qed.
Print Assumptions C124_push.
Example C124_push_ex : let '(c, h) := ic_push_back (@coll_empty nat) 0 7 in let '(c2, h2) := ic_push_back c 1 8 in let '(c3, h3) := ic_push_back c2 0 9 in
  (h, h2, h3) = (0, 0, 1)%N /\ c3 0 = [7; 9] /\ c3 1 = [8] /\ c3 2 = [].
Proof. repeat split. Qed.

Theorem C124_pop : forall (U : Type) (c : coll U) t, (c t = [] -> ic_pop_back c t = UB) /\
  forall l x, c t = l ++ [x] -> exists c', ic_pop_back c t = Ok c' /\ c' t = l /\ forall t', t' <> t -> c' t' = c t'.
Proof. exact @pop_assembled. Qed.
Print Assumptions C124_pop.
Example C124_pop_ex : exists c', ic_pop_back (fun t => if t =? 0 then [1; 2; 3] else [4]) 0 = Ok c' /\ c' 0 = [1; 2] /\ c' 1 = [4].
Proof. eexists. split; [reflexivity|]. split; reflexivity. Qed.

Theorem C124_erase : forall (U : Type) (c : coll U) t h c' h', hc_erase c t h = Ok (c', h') ->
  h' = h /\ (forall t', t' <> t -> c' t' = c t') /\ length (c t) = S (length (c' t)) /\
  forall i, coll_get c' t i = if (i <? h)%N then coll_get c t i else coll_get c t (i + 1).
Proof. exact @erase_assembled. Qed.
Print Assumptions C124_erase.
Example C124_erase_ex : exists c', hc_erase (fun t => if t =? 0 then [1; 2; 3] else [4]) 0 1%N = Ok (c', 1%N) /\ c' 0 = [1; 3] /\ c' 1 = [4].
Proof. eexists. split; [reflexivity|]. split; reflexivity. Qed.

(** erasing a span removes exactly the elements in it; those behind it move down, other types keep theirs *)
Theorem C124_erase_span : forall (U : Type) (c : coll U) t b e c', hc_erase_span c t b e = Ok c' ->
  (b <= e)%N /\ (e <= N.of_nat (length (c t)))%N /\ (forall t', t' <> t -> c' t' = c t') /\
  forall i, coll_get c' t i = if (i <? b)%N then coll_get c t i else coll_get c t (i + (e - b)).
Proof. exact @erase_span_assembled. Qed.
Print Assumptions C124_erase_span.
Example C124_erase_span_ex : exists c', hc_erase_span (fun t => if t =? 0 then [1; 2; 3; 4] else [5]) 0 1%N 3%N = Ok c' /\ c' 0 = [1; 4] /\ c' 1 = [5].
Proof. eexists. split; [reflexivity|]. split; reflexivity. Qed.

(** erasing by index from the index-based collection never returns properly, since the function has no return statement *)
Theorem C124_index_erase_refuted : exists (c : coll nat) t i x, coll_get c t i = Ok x /\ ic_erase c t i = UB.
Proof. exists (fun _ => [5]), 0, 0%N, 5. split; reflexivity. Qed.
Print Assumptions C124_index_erase_refuted.

Theorem C124_position : forall (U : Type) (c : coll U) t p x, (N.of_nat (length (c t)) <= index_limit)%N -> nth_error (c t) p = Some x ->
  coll_get c t (get_index p) = Ok x /\ means (get_index p) = Position (N.of_nat p).
Proof. exact @position_assembled. Qed.
Print Assumptions C124_position.
Example C124_position_ex : coll_get (fun _ => [10; 20; 30]) 3 (get_index 2) = Ok 30.
Proof. reflexivity. Qed.

Theorem C124_clear : forall (U : Type) (c : coll U) t i, coll_clear c t = [] /\ coll_get (coll_clear c) t i = UB.
Proof. exact @clear_assembled. Qed.
Print Assumptions C124_clear.
Example C124_clear_ex : coll_clear (fun t => [t; t]) 5 = [] /\ coll_clear (fun t => [t; t]) 6 = [].
Proof. split; reflexivity. Qed.

(** looping over the index span of a type visits its elements in order *)
Theorem C124_walk : forall (U : Type) (c : coll U) t, (N.of_nat (length (c t)) < 2 ^ 32)%N -> exists l,
  (forall fuel, length (c t) < fuel -> span_visit fuel (fst (ic_span c t)) (snd (ic_span c t)) = Some l) /\ map (coll_get c t) l = map Ok (c t).
Proof. exact @walk_assembled. Qed.
Print Assumptions C124_walk.
Example C124_walk_ex : span_visit 3 (fst (ic_span (fun _ => [10; 20]) 0)) (snd (ic_span (fun _ => [10; 20]) 0)) = Some [0; 1]%N.
Proof. reflexivity. Qed.
