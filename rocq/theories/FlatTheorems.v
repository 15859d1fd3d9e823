(** Properties C01-C04: flat_map, flat_set, sorted_vector. *)
From Coq Require Import List Arith Bool Lia Sorted Permutation.
From Verif Require Import Base FlatSpec FlatModel FlatProofs.
Import ListNotations.

Example nat_total_order : total_order Nat.ltb Nat.eqb.
Proof.
  split; intros *; rewrite ?Nat.ltb_lt, ?Nat.ltb_ge, ?Nat.ltb_irrefl, ?Nat.eqb_eq; try lia; reflexivity.
Qed.

(** C01 *)
Theorem C01_flat_map_refines_map :
  forall (K V : Type) (klt keq : K -> K -> bool) (vdef : V),
  total_order klt keq ->
  forall ops : list (map_op K V),
  let m := fold_left (fm_step klt keq vdef) ops [] in
  let f := map_after keq vdef ops in
  increasing klt (map fst m) /\
  (forall k v, In (k, v) m <-> f k = Some v) /\
  (forall k, match f k with
             | Some v => nth_error m (fm_find klt keq m k) = Some (k, v)
             | None => fm_find klt keq m k = length m
             end) /\
  (forall k, fm_contains klt keq m k = true <-> f k <> None) /\
  (forall k, fm_count keq m k = match f k with Some _ => 1 | None => 0 end) /\
  (forall k, fm_at klt keq m k = match f k with Some v => Ok v | None => Throw end) /\
  (exists ks, NoDup ks /\ (forall k, In k ks <-> f k <> None) /\ fm_size m = length ks).
Proof. exact @flat_map_refines_map. Qed.
Print Assumptions C01_flat_map_refines_map.

(** return values of the calls, in every reachable state *)
Theorem C01_flat_map_results :
  forall (K V : Type) (klt keq : K -> K -> bool) (vdef : V),
  total_order klt keq ->
  forall ops : list (map_op K V),
  let m := fold_left (fm_step klt keq vdef) ops [] in
  let f := map_after keq vdef ops in
  (forall k v, let '(m', (it, inserted)) := fm_insert klt keq m k v in
     (inserted = true <-> f k = None) /\
     nth_error m' it = Some (k, match f k with Some w => w | None => v end)) /\
  (forall k, let '(m', it) := fm_index klt keq vdef m k in
     nth_error m' it = Some (k, match f k with Some w => w | None => vdef end)) /\
  (forall k, snd (fm_erase klt keq m k) = match f k with Some _ => 1 | None => 0 end).
Proof. exact @flat_map_results. Qed.
Print Assumptions C01_flat_map_results.

Example C01_example :
  let ops := [MAssign 5 50; MAssign 2 20; MInsert 5 99; MTouch 3; MErase 2; MInsert 4 40] in
  fold_left (fm_step Nat.ltb Nat.eqb 0) ops [] = [(3, 0); (4, 40); (5, 50)] /\
  map (map_after Nat.eqb 0 ops) [2; 3; 4; 5] = [None; Some 0; Some 40; Some 50].
Proof. split; reflexivity. Qed.

(** C02 *)
Theorem C02_flat_set_refines_set :
  forall (K : Type) (klt keq : K -> K -> bool),
  total_order klt keq ->
  forall ops : list (set_op K),
  let s := fold_left (fs_step klt keq) ops [] in
  let f := set_after keq ops in
  increasing klt s /\ NoDup s /\
  (forall k, In k s <-> f k = true) /\
  (forall k, fs_contains klt keq s k = f k) /\
  (forall k, fs_count keq s k = if f k then 1 else 0) /\
  (forall k, if f k then nth_error s (fs_find klt keq s k) = Some k
             else fs_find klt keq s k = length s) /\
  fs_size s = length s /\
  (forall k, let '(s', (it, inserted)) := fs_insert klt keq s k in
     inserted = negb (f k) /\ nth_error s' it = Some k /\ (f k = true -> s' = s)) /\
  (forall k, snd (fs_erase klt keq s k) = if f k then 1 else 0).
Proof. exact @flat_set_refines_set. Qed.
Print Assumptions C02_flat_set_refines_set.

Example C02_example :
  fold_left (fs_step Nat.ltb Nat.eqb) [SInsert 7; SInsert 3; SInsert 7; SInsert 5; SErase 3] [] = [5; 7].
Proof. reflexivity. Qed.

(** C03: with distinct keys the initializer list gives the map / set of its elements ... *)
Theorem C03_flat_map_init_partial :
  forall (K V : Type) (klt keq : K -> K -> bool),
  total_order klt keq ->
  forall l : list (K * V), NoDup (map fst l) ->
  let m := fm_of_list klt l in
  increasing klt (map fst m) /\ Permutation m l /\
  (forall k v, fm_at klt keq m k = Ok v <-> In (k, v) l).
Proof. exact @flat_map_init_distinct. Qed.
Print Assumptions C03_flat_map_init_partial.

Theorem C03_flat_set_init_partial :
  forall (K : Type) (klt keq : K -> K -> bool),
  total_order klt keq ->
  forall l : list K, NoDup l ->
  let s := fs_of_list klt l in
  increasing klt s /\ Permutation s l /\
  (forall k, fs_contains klt keq s k = true <-> In k l).
Proof. exact @flat_set_init_distinct. Qed.
Print Assumptions C03_flat_set_init_partial.

Example C03_example : fm_of_list Nat.ltb [(3, 30); (1, 10); (2, 20)] = [(1, 10); (2, 20); (3, 30)]
  /\ NoDup (map fst [(3, 30); (1, 10); (2, 20)]).
Proof. split; [reflexivity|]. repeat constructor; cbn; intuition discriminate. Qed.

(** ... but duplicates in the list stay in the container: the key occurs twice, size() and count() are 2,
    and after erase(key) the key is still found. *)
Theorem C03_flat_map_init_refuted :
  exists l : list (nat * nat),
  let m := fm_of_list Nat.ltb l in
  ~ NoDup (map fst m) /\ fm_count Nat.eqb m 1 = 2 /\ fm_size m = 2 /\
  fm_contains Nat.ltb Nat.eqb (fst (fm_erase Nat.ltb Nat.eqb m 1)) 1 = true.
Proof.
  exists [(1, 10); (1, 11)]. cbv zeta. repeat split; try reflexivity.
  intros H. inversion H as [|a b Hn Hd]; subst. apply Hn. left. reflexivity.
Qed.
Print Assumptions C03_flat_map_init_refuted.

Theorem C03_flat_set_init_refuted :
  exists l : list nat,
  let s := fs_of_list Nat.ltb l in
  ~ NoDup s /\ fs_count Nat.eqb s 1 = 2 /\
  fs_contains Nat.ltb Nat.eqb (fst (fs_erase Nat.ltb Nat.eqb s 1)) 1 = true.
Proof.
  exists [1; 1]. cbv zeta. repeat split; try reflexivity.
  intros H. inversion H as [|a b Hn Hd]; subst. apply Hn. left. reflexivity.
Qed.
Print Assumptions C03_flat_set_init_refuted.

(** C04 *)
Theorem C04_sorted_vector_multiset :
  forall (T : Type) (tlt teq : T -> T -> bool),
  weak_order tlt teq ->
  forall (init : list T) (ops : list (bag_op T)),
  let v0 := sv_of_list tlt init in
  let v := fold_left (sv_step tlt teq) ops v0 in
  nondecreasing tlt v0 /\ Permutation v0 init /\
  nondecreasing tlt v /\
  Permutation v (bag_after teq v0 ops) /\
  (forall e, filter (fun x => teq x e) v = filter (fun x => teq x e) (bag_after teq v0 ops)).
Proof. exact @sorted_vector_multiset. Qed.
Print Assumptions C04_sorted_vector_multiset.

Theorem C04_sorted_vector_results :
  forall (T : Type) (tlt teq : T -> T -> bool),
  weak_order tlt teq ->
  forall (init : list T) (ops : list (bag_op T)),
  let v := fold_left (sv_step tlt teq) ops (sv_of_list tlt init) in
  (forall e, exists A B, v = A ++ B /\ sv_insert tlt v e = (A ++ e :: B, length A) /\
     (forall a, In a A -> tlt e a = false) /\ (forall b, In b B -> tlt e b = true)) /\
  (forall e, sv_remove tlt teq v e = filter (fun x => negb (teq x e)) v) /\
  (forall e, match find (fun x => teq x e) v with
             | Some x => nth_error v (sv_find tlt teq v e) = Some x
             | None => sv_find tlt teq v e = length v
             end).
Proof. exact @sorted_vector_results. Qed.
Print Assumptions C04_sorted_vector_results.

(** a weak order that is not total: pairs compared by their first component *)
Example C04_example :
  let lt (a b : nat * nat) := fst a <? fst b in
  let eq (a b : nat * nat) := fst a =? fst b in
  weak_order lt eq /\
  fold_left (sv_step lt eq) [BInsert (2, 0); BInsert (1, 0); BInsert (2, 1); BInsert (3, 0); BRemove (1, 9)] []
    = [(2, 0); (2, 1); (3, 0)].
Proof.
  cbv zeta. split; [|reflexivity].
  split; intros *; cbv beta; rewrite ?Nat.ltb_lt, ?Nat.ltb_ge, ?Nat.ltb_irrefl, ?Nat.eqb_eq; try lia; reflexivity.
Qed.
