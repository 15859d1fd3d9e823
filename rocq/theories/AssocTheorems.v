(** Properties C05-C07, C38, C62: keyed containers, interning, labels, factory, handles. *)
From Coq Require Import List Arith Bool Lia NArith ZArith.
From Verif Require Import Base FlatSpec FlatModel AssocSpec AssocModel AssocProofs.
Import ListNotations.

(** C05: a known key is found at its first entry; storing under it changes that entry's value only. *)
Theorem C05_indexed_map_known_key :
  forall (K V : Type) (keq : K -> K -> bool) (vdef : V), eq_test keq ->
  forall (l : list (K * V)) k i v,
  first_at l k i v ->
  im_find keq l k = i /\ im_contains keq l k = true /\ im_at keq l k = Ok v /\
  im_index keq vdef l k = (l, i) /\
  (forall w, nth_error (im_assign keq vdef l k w) i = Some (k, w) /\
             length (im_assign keq vdef l k w) = length l /\
             (forall j, j <> i -> nth_error (im_assign keq vdef l k w) j = nth_error l j) /\
             im_insert keq l k w = (im_assign keq vdef l k w, (i, false))).
Proof. exact @imap_known. Qed.
Print Assumptions C05_indexed_map_known_key.

(** C05: an unknown key is appended; const access to it throws. *)
Theorem C05_indexed_map_new_key :
  forall (K V : Type) (keq : K -> K -> bool) (vdef : V), eq_test keq ->
  forall (l : list (K * V)) k,
  ~ In k (map fst l) ->
  im_find keq l k = length l /\ im_contains keq l k = false /\ im_at keq l k = Throw /\
  im_index keq vdef l k = (l ++ [(k, vdef)], length l) /\
  (forall w, im_assign keq vdef l k w = l ++ [(k, w)] /\
             im_insert keq l k w = (l ++ [(k, w)], (length l, true))).
Proof. exact @imap_unknown. Qed.
Print Assumptions C05_indexed_map_new_key.

(** C05: over histories, keys are in order of first use and hold the value stored last. *)
Theorem C05_indexed_map_history :
  forall (K V : Type) (keq : K -> K -> bool) (vdef : V), eq_test keq ->
  forall ops : list (imap_op K V),
  let l := fold_left (im_step keq vdef) ops [] in
  map fst l = first_occurrences keq (map imap_key ops) /\
  NoDup (map fst l) /\
  forall k, im_at keq l k = match last_stored keq vdef ops k with Some v => Ok v | None => Throw end.
Proof. exact @imap_history. Qed.
Print Assumptions C05_indexed_map_history.

Theorem C05_indexed_map_stable_positions :
  forall (K V : Type) (keq : K -> K -> bool) (vdef : V), eq_test keq ->
  forall ops1 ops2 : list (imap_op K V),
  prefix_of (map fst (fold_left (im_step keq vdef) ops1 []))
            (map fst (fold_left (im_step keq vdef) (ops1 ++ ops2) [])).
Proof. exact @imap_prefix. Qed.
Print Assumptions C05_indexed_map_stable_positions.

Example C05_example :
  eq_test Nat.eqb /\
  first_at [(7, 1); (3, 2); (7, 3)] 7 0 1 /\
  fold_left (im_step Nat.eqb 0) [IAssign 7 1; ITouch 3; IInsert 7 5; IAssign 4 9; ITouch 7] []
    = [(7, 5); (3, 0); (4, 9)].
Proof.
  split; [exact Nat.eqb_eq|]. split; [|reflexivity]. split; [reflexivity|]. intros j; lia.
Qed.

(** C06: for any sequence of get_or_add calls (each exception caught by its caller): a successful call
    returns the rank of its value in order of first occurrence, the final state maps the index back to the value
    and the value to the index; equal indices mean equal values; a call fails exactly for values whose
    rank is not below the maximum of the index type. *)
Theorem C06_indexed_set_interning :
  forall (T : Type) (tlt teq : T -> T -> bool) (imax : nat), total_order tlt teq ->
  forall xs : list T,
  let '(s, rs) := is_run tlt teq imax (@is_empty T) xs in
  (forall i x, nth_error xs i = Some x ->
     match nth_error rs i with
     | Some (Ok j) => nth_error (first_occurrences teq xs) j = Some x /\ j < imax /\
                      is_get s j = Ok x /\ is_try_get tlt teq s x = Some j
     | Some Throw => forall j, nth_error (first_occurrences teq xs) j = Some x -> imax <= j
     | _ => False
     end) /\
  (forall i1 i2 j1 j2, nth_error rs i1 = Some (Ok j1) -> nth_error rs i2 = Some (Ok j2) ->
     (j1 = j2 <-> nth_error xs i1 = nth_error xs i2)).
Proof. exact @indexed_set_history. Qed.
Print Assumptions C06_indexed_set_interning.

Example C06_example :
  snd (is_run Nat.ltb Nat.eqb 2 (@is_empty nat) [10; 20; 10; 30; 20])
  = [Ok 0; Ok 1; Ok 0; Throw; Ok 1].
Proof. reflexivity. Qed.

(** The failing call does leave a trace: size() counts the rejected value, which is not found. *)
Theorem C06_size_after_overflow_refuted :
  exists xs, let s := fst (is_run Nat.ltb Nat.eqb 2 (@is_empty nat) xs) in
  length (is_values s) <> length (is_indices s) /\
  is_get s 2 = Ok 30 /\ is_try_get Nat.ltb Nat.eqb s 30 = None.
Proof. exists [10; 20; 30]. cbv. repeat split; discriminate. Qed.
Print Assumptions C06_size_after_overflow_refuted.

(** C07: find(label) gives the position the label was assigned to; if no position was given a
    second label this is where the label stands; and every non-default label is found where it stands. *)
Theorem C07_label_vector_partial :
  forall (L : Type) (leq : L -> L -> bool) (ldef : L), eq_test leq ->
  forall ops : list (label_op L),
  let v := fold_left (lv_step leq ldef) ops {| lv_labels := []; lv_index := [] |} in
  let '(n, log) := label_log leq ops in
  length (lv_labels v) = n /\
  (forall l i, lv_find leq v l = Some i <-> In (l, i) log) /\
  (NoDup (map snd log) -> forall l i, lv_find leq v l = Some i -> lv_get v i = Ok l) /\
  (forall l i, lv_get v i = Ok l -> l <> ldef -> lv_find leq v l = Some i).
Proof. exact @label_vector_history. Qed.
Print Assumptions C07_label_vector_partial.

Example C07_example :
  let ops := [LAdd 5; LAdd 5; LResize 3; LSet 2 8; LAdd 6] in
  let v := fold_left (lv_step Nat.eqb 0) ops {| lv_labels := []; lv_index := [] |} in
  lv_labels v = [5; 0; 8; 6] /\ lv_find Nat.eqb v 8 = Some 2 /\ NoDup (map snd (snd (label_log Nat.eqb ops))).
Proof. cbv. repeat split. repeat constructor; cbn; intuition discriminate. Qed.

(** Missing: after relabelling a position the old label is still found there, *)
Theorem C07_relabel_refuted :
  exists (ops : list (label_op nat)),
  let v := fold_left (lv_step Nat.eqb 0) ops {| lv_labels := []; lv_index := [] |} in
  exists l i, lv_find Nat.eqb v l = Some i /\ lv_get v i <> Ok l.
Proof. exists [LAdd 5; LSet 0 8]. exists 5, 0. cbv. split; [reflexivity|discriminate]. Qed.
Print Assumptions C07_relabel_refuted.

(** and labels given to the constructor are not found at all. *)
Theorem C07_constructed_refuted :
  exists (ls : list nat) l i, lv_get (lv_of_labels ls) i = Ok l /\ lv_find Nat.eqb (lv_of_labels ls) l = None.
Proof. exists [5; 6], 6, 1. split; reflexivity. Qed.
Print Assumptions C07_constructed_refuted.

(** C38 *)
Theorem C38_factory_history :
  forall (N C A P : Type) (nlt neq : N -> N -> bool) (cdef : C) (apply : C -> A -> P),
  total_order nlt neq ->
  forall ops : list (fac_op N C),
  let m := fold_left (fac_call nlt neq cdef) ops [] in
  let f := fac_after neq ops in
  (forall n a, fac_create nlt neq apply m n a = match f n with Some c => Ok (apply c a) | None => Throw end) /\
  (forall n a, fac_try_create nlt neq apply m n a =
               Ok (match f n with Some c => Some (apply c a) | None => None end)) /\
  (forall n, fac_has_type nlt neq m n = true <-> f n <> None) /\
  (forall n c, (fac_register nlt neq cdef m n c = Throw <-> f n <> None)) /\
  (forall n, (fac_unregister nlt neq m n = Throw <-> f n = None)).
Proof. exact @factory_history. Qed.
Print Assumptions C38_factory_history.

Example C38_example :
  let ops := [FRegister 2 20; FRegister 1 10; FRegister 2 99; FUnregister 1; FUnregister 7] in
  let m := fold_left (fac_call Nat.ltb Nat.eqb 0) ops [] in
  fac_create Nat.ltb Nat.eqb Nat.add m 2 5 = Ok 25 /\ fac_create Nat.ltb Nat.eqb Nat.add m 1 5 = Throw /\
  fac_after Nat.eqb ops 2 = Some 20.
Proof. cbv. auto. Qed.

(** C62: handles stay attached to their elements. *)
Theorem C62_handle_push_back :
  forall (T : Type) (w : N) (l : list T) x,
  (N.of_nat (length l) < w)%N ->
  let '(l', h) := hv_push_back w l x in
  hv_get l' h = Ok x /\
  (forall h' y, hv_get l h' = Ok y -> hv_get l' h' = Ok y).
Proof. exact @handle_push_back. Qed.
Print Assumptions C62_handle_push_back.

Theorem C62_handle_erase_update :
  forall (T : Type) (w : N) (l l' : list T) b e,
  (N.of_nat (length l) < w)%N ->
  hv_erase_span l b e = Ok l' ->
  forall h x, hv_get l h = Ok x -> span_contains b e h = false ->
  hv_get l' (update_moved_handle w h e (N.of_nat (length l)) b) = Ok x.
Proof. exact @handle_erase_span. Qed.
Print Assumptions C62_handle_erase_update.

Theorem C62_invalid_handle_stays_invalid :
  forall (T : Type) (w : N) (l : list T) b e,
  (N.of_nat (length l) < w)%N ->
  update_moved_handle w (h_invalid w) e (N.of_nat (length l)) b = h_invalid w.
Proof. exact @handle_invalid_stays. Qed.
Print Assumptions C62_invalid_handle_stays_invalid.

Example C62_example :
  hv_erase_span [10; 11; 12; 13; 14] 1 3 = Ok [10; 13; 14] /\
  update_moved_handle 256 4 3 5 1 = 2%N /\ hv_get [10; 13; 14] 2 = Ok 14.
Proof. cbv. auto. Qed.
