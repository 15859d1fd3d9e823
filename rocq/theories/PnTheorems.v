(** prop_node: property theorems. *)
From Coq Require Import Ascii String List Arith Bool NArith ZArith.
From Verif Require Import Base Str StrSpec StrModel StrBase CastSpec CastModel CastProofs PnSpec PnModel PnProofs PnProofs2.
Import ListNotations.

(** C14: a query is split at the delimiter and answered by the node it addresses; no query fails *)
Theorem C14_query_get : forall (t : pn) (q : str) (d : ascii),
  exists ks r, query_parts d q ks /\ try_get_query t q d = Ok r /\
    (forall p, r = Some p <-> addresses t ks p) /\
    (forall p, r = Some p -> exists u, node_at t p = Some u).
Proof. exact query_get_assembled. Qed.
Print Assumptions C14_query_get.
Example C14_query_get_ex :
  let t := PN [] [(lit "a", PN [] [([], pn_of_value (lit "1")); ([], PN [] [(lit "b", pn_of_value (lit "x"))] false)] false); (lit "a", pn_empty)] false in
  try_get_query t (lit "a.#2.b") "."%char = Ok (Some [0; 1; 0]) /\ try_get_query t (lit "a.#3.b") "."%char = Ok None /\
  try_get_query t (lit "a/") "/"%char = Ok (Some [0; 0]) /\ try_get_query t (lit "") "."%char = Ok None.
Proof. vm_compute. repeat split. Qed.

(** C14: after set_query the query finds the value, nodes not on the path and not below it are untouched, and so is the answer to every query that addresses such a node;
    nodes on the path keep their value and gain at most the missing key at the end *)
Theorem C14_set_query : forall (t : pn) (q : str) (d : ascii) (v : pn),
  exists ks t' p, query_parts d q ks /\ set_query t q v d = Ok (t', p) /\
    try_get_query t' q d = Ok (Some p) /\
    (forall r, node_at t' (p ++ r) = node_at v r) /\
    (forall x, ~ is_prefix p x -> ~ is_prefix x p -> node_at t' x = node_at t x) /\
    (forall n, n < length p -> exists u', node_at t' (firstn n p) = Some u' /\
       match node_at t (firstn n p) with
       | Some u => pn_value u' = pn_value u /\ pn_flag u' = pn_flag u /\
          (pn_keys u' = pn_keys u \/
           (pn_keys u' = pn_keys u ++ [nth n ks []] /\ ~ exists i, addresses_child u (nth n ks []) i))
       | None => pn_value u' = [] /\ pn_flag u' = false /\ pn_keys u' = [nth n ks []]
       end) /\
    (forall p0, try_get_query t q d = Ok (Some p0) -> p = p0 /\ forall n u, n < length p -> node_at t (firstn n p) = Some u ->
       exists u', node_at t' (firstn n p) = Some u' /\ pn_keys u' = pn_keys u) /\
    (forall q2 d2 p2, ~ is_prefix p p2 -> ~ is_prefix p2 p ->
       (try_get_query t q2 d2 = Ok (Some p2) <-> try_get_query t' q2 d2 = Ok (Some p2))).
Proof. exact set_query_assembled. Qed.
Print Assumptions C14_set_query.
Example C14_set_query_ex :
  let t := PN (lit "v") [(lit "a", PN (lit "w") [(lit "x", pn_of_value (lit "1"))] false); (lit "c", pn_of_value (lit "2"))] false in
  set_query t (lit "a.b.c") (pn_of_value (lit "3")) "."%char =
    Ok (PN (lit "v") [(lit "a", PN (lit "w") [(lit "x", pn_of_value (lit "1")); (lit "b", PN [] [(lit "c", pn_of_value (lit "3"))] false)] false); (lit "c", pn_of_value (lit "2"))] false, [0; 1; 0]).
Proof. vm_compute. reflexivity. Qed.

(** C14: #n addresses the n-th child counting from 1, unless a child has that very key *)
Theorem C14_index : forall (t : pn) (n : nat), (n < length (pn_children t))%nat -> (Z.of_nat (S n) < 2 ^ 64)%Z ->
  ~ In ("#"%char :: to_string (Z.of_nat (S n))) (pn_keys t) ->
  try_get_query t ("#"%char :: to_string (Z.of_nat (S n))) "."%char = Ok (Some [n]).
Proof. exact query_index. Qed.
Print Assumptions C14_index.
Example C14_index_ex :
  let t := PN [] (repeat ([], pn_empty) 12) false in
  (11 < length (pn_children t))%nat /\ ~ In (lit "#12") (pn_keys t) /\ try_get_query t (lit "#12") "."%char = Ok (Some [11]) /\
  try_get_query t (lit "#0") "."%char = Ok None /\ try_get_query t (lit "#13") "."%char = Ok None.
Proof. split; [apply Nat.ltb_lt; reflexivity|]. split; [cbn; intros H; decompose [or] H; discriminate || contradiction|]. vm_compute. repeat split. Qed.

(** C15: erase by key *)
Theorem C15_erase : forall (t : pn) (k : str),
  (forall pre c post, pn_children t = pre ++ (k, c) :: post -> ~ In k (map fst pre) ->
     erase t k = (PN (pn_value t) (pre ++ post) true, true)) /\
  (~ In k (pn_keys t) -> erase t k = (PN (pn_value t) (pn_children t) true, false)).
Proof. exact erase_spec. Qed.
Print Assumptions C15_erase.
Example C15_erase_ex :
  let t := PN [] [(lit "a", pn_empty); (lit "b", pn_of_value (lit "1")); (lit "c", pn_empty); (lit "b", pn_of_value (lit "2"))] false in
  erase t (lit "b") = (PN [] [(lit "a", pn_empty); (lit "c", pn_empty); (lit "b", pn_of_value (lit "2"))] true, true).
Proof. reflexivity. Qed.

(** C15: erase_query, when no part but the last contains a dot (always so when the delimiter is the dot):
    it erases exactly when the node addressed by all parts but the last has a child with the last part as key, removes the first such child and nothing else;
    otherwise it returns false and the tree is the same.
    Missing for the full statement: see the two refutations below. *)
Theorem C15_erase_query_partial : forall (t : pn) (q : str) (d : ascii) (ks : list str) (k : str),
  query_parts d q (ks ++ [k]) -> Forall (fun x : str => ~ In "."%char x) ks ->
  (forall pp u, addresses t ks pp -> node_at t pp = Some u -> In k (pn_keys u) ->
     exists t', erase_query t q d = Ok (t', true) /\ erased_at t t' pp k) /\
  ((~ exists pp u, addresses t ks pp /\ node_at t pp = Some u /\ In k (pn_keys u)) ->
     exists t', erase_query t q d = Ok (t', false) /\ same_tree t t').
Proof. exact erase_query_assembled. Qed.
Print Assumptions C15_erase_query_partial.
Example C15_erase_query_ex :
  let t := PN [] [(lit "a", PN [] [(lit "b", pn_of_value (lit "1")); (lit "b", pn_of_value (lit "2")); (lit "c", pn_empty)] false)] false in
  query_parts "/"%char (lit "a/b") ([lit "a"] ++ [lit "b"]) /\ addresses t [lit "a"] [0] /\
  erase_query t (lit "a/b") "/"%char = Ok (PN [] [(lit "a", PN [] [(lit "b", pn_of_value (lit "2")); (lit "c", pn_empty)] true)] false, true).
Proof.
  cbv zeta. split.
  { split; [discriminate|]. split; [reflexivity|]. repeat constructor; cbn; intros H; decompose [or] H; discriminate || contradiction. }
  split; [|reflexivity].
  econstructor; [left; split; [reflexivity|intros j Hj; inversion Hj]|reflexivity|constructor].
Qed.

(** C15: with another delimiter a key containing a dot is not found, although the same query addresses the node *)
Theorem C15_erase_other_delimiter_refuted : exists t q d p,
  try_get_query t q d = Ok (Some p) /\ erase_query t q d = Ok (t, false).
Proof. exact erase_other_delimiter_refuted. Qed.
Print Assumptions C15_erase_other_delimiter_refuted.

(** C15: a node addressed by position is found by try_get_query but not erased by erase_query *)
Theorem C15_erase_by_index_refuted : exists t q t',
  try_get_query t q "."%char = Ok (Some [0]) /\ erase_query t q "."%char = Ok (t', false) /\ same_tree t t'.
Proof. exact erase_by_index_refuted. Qed.
Print Assumptions C15_erase_by_index_refuted.

(** C16: merging with a tree whose siblings have distinct keys.
    For a key path defined in both trees the value is the other's iff overwrite is set, and the keys below are the old ones followed by the other's new ones in order;
    a path defined in one tree only leads to exactly that tree's node; no other path exists *)
Theorem C16_merge : forall (overwrite : bool) (ks : list str) (t o : pn), distinct_keys o ->
  (forall u w, at_keys t ks u -> at_keys o ks w ->
     exists m, at_keys (merge t o overwrite) ks m /\ pn_value m = (if overwrite then pn_value w else pn_value u) /\
       pn_flag m = pn_flag u /\ pn_keys m = pn_keys u ++ new_keys (pn_keys u) (pn_keys w)) /\
  (forall u, at_keys t ks u -> (~ exists w, at_keys o ks w) -> at_keys (merge t o overwrite) ks u) /\
  (forall w, at_keys o ks w -> (~ exists u, at_keys t ks u) -> at_keys (merge t o overwrite) ks w) /\
  (forall m, at_keys (merge t o overwrite) ks m -> (exists u, at_keys t ks u) \/ (exists w, at_keys o ks w)).
Proof. exact merge_paths. Qed.
Print Assumptions C16_merge.
Example C16_merge_ex :
  let t := PN [] [(lit "a", PN (lit "1") [(lit "x", pn_of_value (lit "2"))] false); (lit "b", pn_of_value (lit "3"))] false in
  let o := PN [] [(lit "c", pn_of_value (lit "4")); (lit "a", PN (lit "5") [(lit "y", pn_of_value (lit "6"))] false)] false in
  distinct_keys o /\
  merge t o true = PN [] [(lit "a", PN (lit "5") [(lit "x", pn_of_value (lit "2")); (lit "y", pn_of_value (lit "6"))] false); (lit "b", pn_of_value (lit "3")); (lit "c", pn_of_value (lit "4"))] false /\
  merge t o false = PN [] [(lit "a", PN (lit "1") [(lit "x", pn_of_value (lit "2")); (lit "y", pn_of_value (lit "6"))] false); (lit "b", pn_of_value (lit "3")); (lit "c", pn_of_value (lit "4"))] false.
Proof. cbv zeta. split; [|split; reflexivity]. repeat constructor; cbn; intros H; decompose [or] H; discriminate || contradiction. Qed.

(** C16: children of the target that the other tree does not mention, or that are not the first with their key, keep their place and contents; for any other tree *)
Theorem C16_unmentioned : forall (t o : pn) (overwrite : bool) (i : nat) (kc : str * pn), nth_error (pn_children t) i = Some kc ->
  (~ In (fst kc) (pn_keys o) \/ ~ first_child t (fst kc) i) -> nth_error (pn_children (merge t o overwrite)) i = Some kc.
Proof. exact merge_shadow. Qed.
Print Assumptions C16_unmentioned.
Example C16_unmentioned_ex :
  let t := PN [] [(lit "a", pn_of_value (lit "1")); (lit "a", pn_of_value (lit "2"))] false in
  let o := PN [] [(lit "a", pn_of_value (lit "3")); (lit "a", pn_of_value (lit "4"))] false in
  ~ first_child t (lit "a") 1 /\ pn_children (merge t o true) = [(lit "a", pn_of_value (lit "4")); (lit "a", pn_of_value (lit "2"))].
Proof. cbv zeta. split; [|reflexivity]. intros [_ H]. apply (H 0 (le_n 1)). reflexivity. Qed.

(** C16: merging a tree with itself changes nothing when siblings have distinct keys *)
Theorem C16_self : forall (overwrite : bool) (t : pn), distinct_keys t -> merge t t overwrite = t.
Proof. exact merge_self. Qed.
Print Assumptions C16_self.
Example C16_self_ex : distinct_keys (PN (lit "v") [(lit "a", pn_of_value (lit "1")); ([], PN [] [(lit "a", pn_empty)] true)] false).
Proof. repeat constructor; cbn; intros H; decompose [or] H; discriminate || contradiction. Qed.

(** C16: merging an empty tree without overwrite changes nothing *)
Theorem C16_empty : forall (t : pn), merge t pn_empty false = t.
Proof. exact (fun t => match t with PN v c a => eq_refl end). Qed.
Print Assumptions C16_empty.
Example C16_empty_ex : merge (PN (lit "v") [(lit "a", pn_empty)] true) pn_empty false = PN (lit "v") [(lit "a", pn_empty)] true.
Proof. reflexivity. Qed.

(** C16: with overwrite an empty tree erases the value *)
Theorem C16_empty_overwrite_refuted : exists t, ~ same_tree t (merge t pn_empty true).
Proof. exact empty_overwrite_refuted. Qed.
Print Assumptions C16_empty_overwrite_refuted.

(** C16: with repeated keys merging a tree with itself changes it *)
Theorem C16_self_duplicate_refuted : exists t, ~ same_tree t (merge t t true).
Proof. exact self_duplicate_refuted. Qed.
Print Assumptions C16_self_duplicate_refuted.

(** C17: after any history of reads the flag of every node is what the history says, and tree, keys and values are the same *)
Theorem C17_flags : forall (t : pn) (h : list read_op),
  same_tree t (run_reads t h) /\ (forall x u, node_at (run_reads t h) x = Some u -> flag_after t x h (pn_flag u)).
Proof. exact (fun t h => conj (run_same t h) (flags_correct t h)). Qed.
Print Assumptions C17_flags.
Example C17_flags_ex :
  let t := PN [] [(lit "a", pn_of_value (lit "1")); (lit "b", PN [] [([], pn_of_value (lit "2"))] false)] false in
  map pn_flag (all_nodes (run_reads t [RStr [0]; RMark [] false; RStrings [1]; RSize []])) = [false; true; false; false] /\
  map pn_flag (all_nodes (run_reads t [RPeek [0]; RStrings [1]; RChild [] (lit "a")])) = [false; false; true; true].
Proof. split; reflexivity. Qed.

(** C17: the history determines the flag *)
Theorem C17_flag_unique : forall (t : pn) (x : list nat) (h : list read_op) (b b' : bool), flag_after t x h b -> flag_after t x h b' -> b = b'.
Proof. exact flag_after_fun. Qed.
Print Assumptions C17_flag_unique.
Example C17_flag_unique_ex : flag_after (pn_of_value (lit "1")) [] [RStr []; RMark [] false] true.
Proof. eapply fa_read; [reflexivity|]. eapply fa_mark; [exists []; reflexivity|]. apply (fa_start _ _ (pn_of_value (lit "1"))). reflexivity. Qed.

(** C17: a node counts as accessed iff it has no value or its flag is set, and the count is that of the other nodes *)
Theorem C17_count : forall (t : pn),
  (is_accessed t = true <-> pn_value t = [] \/ pn_flag t = true) /\
  count_unaccessed t = length (filter (fun u => negb (pn_flag u) && match pn_value u with [] => false | _ => true end) (all_nodes t)).
Proof. exact (fun t => conj (is_accessed_iff t) (count_unaccessed_spec t)). Qed.
Print Assumptions C17_count.
Example C17_count_ex :
  let t := PN [] [(lit "a", pn_of_value (lit "1")); (lit "b", PN [] [([], pn_of_value (lit "2"))] false)] false in
  count_unaccessed t = 2 /\ count_unaccessed (run_reads t [RStr [0]]) = 1 /\ count_unaccessed (run_reads t [RMark [] true]) = 0.
Proof. repeat split. Qed.

(** C18: the search gives the first entry with the key in pre-order; pre-order lists exactly the descendants with their keys *)
Theorem C18_find_recursively : forall (t : pn) (k : str),
  first_in k (preorder t) (find_recursively t k) /\ (forall p, In (k, p) (preorder t) <-> key_at t p = Some k).
Proof. exact (fun t k => conj (find_rec_spec t k) (preorder_complete t k)). Qed.
Print Assumptions C18_find_recursively.
Example C18_find_recursively_ex :
  let t := PN [] [(lit "a", PN [] [(lit "c", pn_empty)] false); (lit "c", pn_empty); (lit "b", PN [] [(lit "d", pn_empty)] false)] false in
  find_recursively t (lit "c") = Some [0; 0] /\ find_recursively t (lit "d") = Some [2; 0] /\ find_recursively t (lit "e") = None.
Proof. repeat split. Qed.

(** C18: try_find_parent finds the parent and the position of every proper descendant, and only of those *)
Theorem C18_find_parent : forall (t : pn) (target par : list nat) (i : nat),
  try_find_parent t target = Some (par, i) <-> target = par ++ [i] /\ exists u, node_at t target = Some u.
Proof. exact try_find_parent_spec. Qed.
Print Assumptions C18_find_parent.
Example C18_find_parent_ex :
  let t := PN [] [(lit "a", PN [] [(lit "c", pn_empty)] false); (lit "c", pn_empty)] false in
  try_find_parent t [0; 0] = Some ([0], 0) /\ try_find_parent t [1] = Some ([], 1) /\ try_find_parent t [] = None.
Proof. repeat split. Qed.

(** C18: count_children counts all descendants, count_layers is the length of the longest path *)
Theorem C18_counts : forall (t : pn),
  count_children t = length (preorder t) /\
  (forall p u, node_at t p = Some u -> length p <= count_layers t) /\ (exists p u, node_at t p = Some u /\ length p = count_layers t).
Proof. exact (fun t => conj (count_children_spec t) (count_layers_spec t)). Qed.
Print Assumptions C18_counts.
Example C18_counts_ex :
  let t := PN [] [(lit "a", PN [] [(lit "c", pn_empty)] false); (lit "c", pn_empty)] false in count_children t = 3 /\ count_layers t = 2.
Proof. split; reflexivity. Qed.

(** C68: comparing trees decides equality of values, keys and order at every level and ignores accessed flags; it is an equivalence *)
Theorem C68_equality : forall (t u w : pn),
  (pn_eqb t u = true <-> same_tree t u) /\ pn_eqb t t = true /\ (pn_eqb t u = true -> pn_eqb u t = true) /\
  (pn_eqb t u = true -> pn_eqb u w = true -> pn_eqb t w = true) /\
  (same_tree t u -> forall p, match node_at t p, node_at u p with
     | Some x, Some y => pn_value x = pn_value y /\ pn_keys x = pn_keys y | None, None => True | _, _ => False end) /\
  ((forall p, match node_at t p, node_at u p with
     | Some x, Some y => pn_value x = pn_value y /\ pn_keys x = pn_keys y | None, None => True | _, _ => False end) -> same_tree t u).
Proof. exact eq_assembled. Qed.
Print Assumptions C68_equality.
Example C68_equality_ex :
  pn_eqb (PN (lit "1") [(lit "a", pn_empty)] true) (PN (lit "1") [(lit "a", access pn_empty)] false) = true /\
  pn_eqb (PN (lit "1") [(lit "a", pn_empty)] true) (PN (lit "1") [(lit "b", pn_empty)] true) = false.
Proof. split; reflexivity. Qed.

(** C69: the query made for a node leads back to the node when every key on the way is non-empty, has no delimiter and is the first of its name.
    Missing: array elements and repeated keys, see the refutations *)
Theorem C69_node_query_partial : forall (d : ascii) (t : pn) (p : list nat) (ks : list str), plain_path d t p ks -> p <> [] ->
  find_query_to_node t p d = Some (join [d] ks) /\ try_get_query t (join [d] ks) d = Ok (Some p) /\
  (d = "."%char -> make_prop_node_query t p = Ok (join [d] ks)).
Proof. exact node_query_assembled. Qed.
Print Assumptions C69_node_query_partial.
Example C69_node_query_ex :
  let t := PN [] [(lit "a", pn_empty); (lit "b", PN [] [(lit "a", pn_empty); (lit "c", pn_empty)] false)] false in
  plain_path "."%char t [1; 1] [lit "b"; lit "c"] /\ find_query_to_node t [1; 1] "."%char = Some (lit "b.c").
Proof.
  cbv zeta. split; [|reflexivity].
  eapply (plain_step _ _ 1 (lit "b", _) [1] [lit "c"]); [reflexivity| |discriminate|cbn; intros [H|[]]; discriminate|].
  { split; [reflexivity|]. intros [|j] Hj; [discriminate|]. inversion Hj. inversion H0. }
  eapply (plain_step _ _ 1 (lit "c", pn_empty) [] []); [reflexivity| |discriminate|cbn; intros [H|[]]; discriminate|constructor].
  split; [reflexivity|]. intros [|j] Hj; [discriminate|]. inversion Hj. inversion H0.
Qed.

(** C69: for an array element the query made leads to another node *)
Theorem C69_array_refuted : exists t p q, find_query_to_node t p "."%char = Some q /\ make_prop_node_query t p = Ok q /\
  try_get_query t q "."%char = Ok (Some [0]) /\ p = [0; 1].
Proof. exact array_refuted. Qed.
Print Assumptions C69_array_refuted.

(** C70: setting a key to a value and reading the key gives the value; other keys give what they gave; a new key comes last *)
Theorem C70_set_get : forall (T : Type) (to_str : T -> str) (from_str : str -> option T) (t : pn) (k : str) (x : T),
  from_str (to_str x) = Some x ->
  let t' := set_child t k (pn_of_value (to_str x)) in
  pn_get_key from_str t' k = Ok x /\ (forall d, pn_get_key_def from_str t' k d = Ok x) /\
  (forall k2, k2 <> k -> pn_get_key from_str t' k2 = pn_get_key from_str t k2 /\
     (forall d, pn_get_key_def from_str t' k2 d = pn_get_key_def from_str t k2 d)) /\
  pn_keys t' = pn_keys t ++ new_keys (pn_keys t) [k] /\ pn_value t' = pn_value t /\
  (forall i kc, nth_error (pn_children t) i = Some kc -> ~ first_child t k i -> nth_error (pn_children t') i = Some kc).
Proof. exact @set_get_assembled. Qed.
Print Assumptions C70_set_get.
Example C70_set_get_ex :
  let from := fun s => let '(z, ok) := from_str_int KInt s in if ok then Some z else None in
  from (to_str_int KInt (-42)%Z) = Some (-42)%Z /\
  pn_get_key from (set_child (PN [] [(lit "a", pn_of_value (lit "1"))] false) (lit "b") (pn_of_value (to_str_int KInt (-42)%Z))) (lit "b") = Ok (-42)%Z.
Proof. vm_compute. split; reflexivity. Qed.

(** C70: when a typed read succeeds, takes the default, or throws *)
Theorem C70_get : forall (T : Type) (from_str : str -> option T) (t : pn) (k : str) (d : T),
  (forall i c, first_child t k i -> nth_error (pn_children t) i = Some (k, c) ->
     (forall x, from_str (pn_value c) = Some x -> pn_get_key from_str t k = Ok x /\ pn_get_key_def from_str t k d = Ok x) /\
     (from_str (pn_value c) = None -> pn_get_key from_str t k = Throw /\ pn_get_key_def from_str t k d = Throw)) /\
  (~ In k (pn_keys t) -> pn_get_key from_str t k = Throw /\ pn_get_key_def from_str t k d = Ok d).
Proof. exact @get_assembled. Qed.
Print Assumptions C70_get.
Example C70_get_ex :
  let from := fun s => let '(z, ok) := from_str_int KInt s in if ok then Some z else None in
  let t := PN [] [(lit "a", pn_of_value (lit "x")); (lit "b", pn_of_value (lit "7"))] false in
  pn_get_key_def from t (lit "a") 5%Z = Throw /\ pn_get_key_def from t (lit "b") 5%Z = Ok 7%Z /\ pn_get_key_def from t (lit "c") 5%Z = Ok 5%Z.
Proof. vm_compute. repeat split. Qed.

(** C70: get_any takes the first listed key that exists *)
Theorem C70_get_any : forall (T : Type) (from_str : str -> option T) (t : pn) (pre : list str) (k : str) (post : list str) (i : nat) (c : pn) (d : T),
  Forall (fun x => ~ In x (pn_keys t)) pre ->
  (first_child t k i -> nth_error (pn_children t) i = Some (k, c) ->
     forall x, from_str (pn_value c) = Some x ->
       pn_get_any from_str t (pre ++ k :: post) = Ok x /\ pn_get_any_def from_str t (pre ++ k :: post) d = Ok x) /\
  pn_get_any from_str t pre = Throw /\ pn_get_any_def from_str t pre d = Ok d.
Proof. exact @get_any_assembled. Qed.
Print Assumptions C70_get_any.
Example C70_get_any_ex :
  let t := PN [] [(lit "b", pn_of_value (lit "x")); (lit "c", pn_of_value (lit "y"))] false in
  pn_get_any (@Some str) t [lit "a"; lit "c"; lit "b"] = Ok (lit "y").
Proof. reflexivity. Qed.

(** C70: get_all collects the values of all children with the key in order, or throws if one is unreadable *)
Theorem C70_get_all : forall (T : Type) (from_str : str -> option T) (t : pn) (k : str) (l : list T),
  pn_get_all from_str t k = Ok l <->
  Forall2 (fun kc v => from_str (pn_value (snd kc)) = Some v) (filter (fun kc => str_eqb (fst kc) k) (pn_children t)) l.
Proof. exact @get_all_spec. Qed.
Print Assumptions C70_get_all.
Example C70_get_all_ex :
  let t := PN [] [(lit "b", pn_of_value (lit "x")); (lit "c", pn_of_value (lit "y")); (lit "b", pn_of_value (lit "z"))] false in
  pn_get_all (@Some str) t (lit "b") = Ok [lit "x"; lit "z"].
Proof. reflexivity. Qed.

(** C70: a vector stored in a node is read back *)
Theorem C70_vector : forall (T : Type) (to_str : T -> str) (from_str : str -> option T) (l : list T),
  (forall x, In x l -> from_str (to_str x) = Some x) -> pn_get_vector from_str (pn_of_vector to_str l) = Ok l.
Proof. exact @vector_round_trip. Qed.
Print Assumptions C70_vector.
Example C70_vector_ex :
  let from := fun s => let '(z, ok) := from_str_int KInt s in if ok then Some z else None in
  pn_get_vector from (pn_of_vector (to_str_int KInt) [3; -4; 0]%Z) = Ok [3; -4; 0]%Z.
Proof. vm_compute. reflexivity. Qed.

(** C71: options given as "-key" or "-key value" become children in order, with the value or empty.
    Missing: arguments without a key, see the refutation *)
Theorem C71_from_arg_partial : forall (name : str) (l : list (str * option str)),
  Forall (fun e => match snd e with Some v => str_begins_with_char v "-" = false | None => True end) l ->
  prop_node_from_arg name (flat_map (fun e => ("-"%char :: fst e) :: match snd e with Some v => [v] | None => [] end) l) =
  PN name (map (fun e => (fst e, pn_of_value (match snd e with Some v => v | None => [] end))) l) false.
Proof. exact from_arg_spec. Qed.
Print Assumptions C71_from_arg_partial.
Example C71_from_arg_ex :
  prop_node_from_arg (lit "prog") [lit "-a"; lit "1"; lit "-v"; lit "-b"; lit "x y"] =
  PN (lit "prog") [(lit "a", pn_of_value (lit "1")); (lit "v", pn_empty); (lit "b", pn_of_value (lit "x y"))] false.
Proof. reflexivity. Qed.

(** C71: of several arguments without a key only the last is kept; and a negative number after a key becomes a key *)
Theorem C71_from_arg_refuted : exists name a b,
  prop_node_from_arg name [a; b] = PN name [([], pn_of_value b)] false /\ a <> b /\
  prop_node_from_arg name [lit "-x"; lit "-1"] = PN name [(lit "x", pn_empty); (lit "1", pn_empty)] false.
Proof. exact from_arg_refuted. Qed.
Print Assumptions C71_from_arg_refuted.

(** C18: what the simple questions answer *)
Theorem C18_answers : forall (t o : pn) (k : str) (i : nat),
  (has_key t k = true <-> In k (pn_keys t)) /\
  (pn_is_empty t = true <-> pn_value t = [] /\ pn_children t = []) /\
  (is_array t = true <-> forall x, In x (pn_keys t) -> x = []) /\
  (count_key t k = count_occ (list_eq_dec ascii_dec) (pn_keys t) k) /\
  (i < length (pn_children t) -> get_child_at t i = Ok i) /\ (length (pn_children t) <= i -> get_child_at t i = Throw) /\
  (forall j, first_child t k j -> get_child t k = Ok j) /\ (~ In k (pn_keys t) -> get_child t k = Throw) /\
  (pn_children (append t o) = pn_children t ++ pn_children o /\ pn_value (append t o) = pn_value t /\ pn_flag (append t o) = pn_flag t).
Proof.
  intros t o k i. split; [|split; [|split; [|split; [|split; [|split; [|split; [|split; [|repeat split]]]]]]]].
  - unfold has_key. destruct (try_get_child t k) as [j|] eqn:E; split; intros H; try discriminate; try reflexivity.
    + apply first_child_iff, first_child_in in E. apply E.
    + apply child_index_none in E. contradiction.
  - unfold pn_is_empty, has_value, pn_size. destruct (pn_value t), (pn_children t); cbn; split; intros H; try discriminate; auto; destruct H; discriminate.
  - unfold is_array, pn_keys. rewrite forallb_forall. split.
    + intros H x Hx. apply in_map_iff in Hx. destruct Hx as ([x' c] & <- & Hc). specialize (H _ Hc). cbn in *. destruct x'; [reflexivity|discriminate].
    + intros H [x c] Hc. cbn. rewrite (H x); [reflexivity|]. apply in_map_iff. exists (x, c). auto.
  - unfold count_key, pn_keys. induction (pn_children t) as [|[x c] l IH]; [reflexivity|]. cbn [filter map fst count_occ].
    destruct (list_eq_dec ascii_dec x k) as [->|Hx].
    + replace (str_eqb k k) with true by (symmetry; apply str_eqb_eq; reflexivity). cbn [length]. rewrite IH. reflexivity.
    + replace (str_eqb x k) with false; [exact IH|]. symmetry. destruct (str_eqb x k) eqn:E; [apply str_eqb_eq in E; contradiction|reflexivity].
  - intros H. unfold get_child_at, pn_size. apply Nat.ltb_lt in H. rewrite H. reflexivity.
  - intros H. unfold get_child_at, pn_size. apply Nat.ltb_ge in H. rewrite H. reflexivity.
  - intros j H. unfold get_child. apply first_child_iff in H. rewrite H. reflexivity.
  - intros H. unfold get_child. apply child_index_none in H. unfold try_get_child. rewrite H. reflexivity.
Qed.
Print Assumptions C18_answers.
Example C18_answers_ex :
  let t := PN [] [([], pn_of_value (lit "1")); ([], pn_of_value (lit "2"))] false in
  is_array t = true /\ has_key t [] = true /\ has_key t (lit "a") = false /\ pn_is_empty t = false /\ get_child_at t 2 = Throw /\ append t t = PN [] (pn_children t ++ pn_children t) false.
Proof. repeat split. Qed.
