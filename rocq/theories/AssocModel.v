(** Model of /repo/xo/container/indexed_map.h, indexed_set.h, label_vector.h, handle_vector.h,
    /repo/xo/utility/proxy.h, handle.h, factory.h. *)
From Coq Require Import List Arith Bool NArith.
From Verif Require Import Base FlatSpec FlatModel AssocSpec.
Import ListNotations.

(** ** indexed_map *)
Section IndexedMap.
  Context {K V : Type} (keq : K -> K -> bool) (vdef : V).

  (** indexed_map.h 39-46: linear search from the position of the iterator; end() = length *)
  Fixpoint im_find_in (l : list (K * V)) (k : K) : nat :=
    match l with
    | [] => 0
    | x :: t => if keq (fst x) k then 0 else S (im_find_in t k)
    end.
  Definition im_find_from (l : list (K * V)) (k : K) (it : nat) : nat :=
    it + im_find_in (skipn it l) k.
  Definition im_find (l : list (K * V)) (k : K) : nat := im_find_from l k 0.

  (** indexed_map.h 48-51 *)
  Definition im_count (l : list (K * V)) (k : K) : nat :=
    length (filter (fun x => keq (fst x) k) l).
  Definition im_contains (l : list (K * V)) (k : K) : bool := negb (im_find l k =? length l).

  (** indexed_map.h 53-59: existing entry gets the new value, otherwise append *)
  Definition im_insert (l : list (K * V)) (k : K) (v : V) : list (K * V) * (nat * bool) :=
    let it := im_find l k in
    match nth_error l it with
    | Some (k', _) => (list_set l it (k', v), (it, false))
    | None => (l ++ [(k, v)], (length l, true))
    end.

  (** indexed_map.h 61-65: reference given as position *)
  Definition im_index (l : list (K * V)) (k : K) : list (K * V) * nat :=
    let it := im_find l k in
    if it =? length l then (l ++ [(k, vdef)], length l) else (l, it).

  (** [m[k] = v] *)
  Definition im_assign (l : list (K * V)) (k : K) (v : V) : list (K * V) :=
    let (l', it) := im_index l k in
    match nth_error l' it with
    | Some (k', _) => list_set l' it (k', v)
    | None => l'
    end.

  (** indexed_map.h 67-71: const access throws when absent *)
  Definition im_at (l : list (K * V)) (k : K) : outcome V :=
    let it := im_find l k in
    match nth_error l it with
    | Some (_, v) => Ok v
    | None => Throw
    end.

  (** indexed_map.h 20-21: the vector's push_back / emplace_back *)
  Definition im_push_back (l : list (K * V)) (k : K) (v : V) : list (K * V) := l ++ [(k, v)].

  Definition im_step (l : list (K * V)) (o : imap_op K V) : list (K * V) :=
    match o with
    | IAssign k v => im_assign l k v
    | IInsert k v => fst (im_insert l k v)
    | ITouch k => fst (im_index l k)
    end.
End IndexedMap.

(** ** indexed_set; [imax] is constants<I>::max() *)
Section IndexedSet.
  Context {T : Type} (tlt teq : T -> T -> bool) (imax : nat).

  (** indexed_set.h 43-44 *)
  Record iset := { is_values : list T; is_indices : list (T * nat) }.

  (** indexed_set.h 18 *)
  Definition is_get (s : iset) (i : nat) : outcome T := vec_get (is_values s) i.

  (** indexed_set.h 20-24 *)
  Definition is_try_get (s : iset) (x : T) : option nat :=
    let it := fm_find tlt teq (is_indices s) x in
    match nth_error (is_indices s) it with Some e => Some (snd e) | None => None end.

  (** indexed_set.h 26-36: the value is pushed before the overflow test; the state after an
      exception is part of the result *)
  Definition is_get_or_add (s : iset) (x : T) : iset * outcome nat :=
    match is_try_get s x with
    | Some i => (s, Ok i)
    | None =>
      let vs := is_values s ++ [x] in
      let index := length vs - 1 in
      if imax <=? index
      then ({| is_values := vs; is_indices := is_indices s |}, Throw)
      else ({| is_values := vs; is_indices := fm_assign tlt teq 0 (is_indices s) x index |}, Ok index)
    end.

  Definition is_empty : iset := {| is_values := []; is_indices := [] |}.

  (** a sequence of get_or_add calls, each caught separately, with their results *)
  Fixpoint is_run (s : iset) (xs : list T) : iset * list (outcome nat) :=
    match xs with
    | [] => (s, [])
    | x :: t => let (s1, r) := is_get_or_add s x in let (s2, rs) := is_run s1 t in (s2, r :: rs)
    end.
End IndexedSet.

(** ** label_vector; the unordered_map is an association list with one entry per key *)
Section LabelVector.
  Context {L : Type} (leq : L -> L -> bool) (ldef : L).

  (** label_vector.h 63-64 *)
  Record lvec := { lv_labels : list L; lv_index : list (L * nat) }.

  (** label_vector.h 24-27; [None] is no_index *)
  Definition lv_find (v : lvec) (l : L) : option nat :=
    match find (fun e => leq (fst e) l) (lv_index v) with Some e => Some (snd e) | None => None end.

  (** label_vector.h 29-33 *)
  Definition lv_find_or_throw (v : lvec) (l : L) : outcome nat :=
    match lv_find v l with Some i => Ok i | None => Throw end.

  (** [label_indices_[label] = i] on an unordered_map *)
  Definition lv_map_set (m : list (L * nat)) (l : L) (i : nat) : list (L * nat) :=
    (l, i) :: filter (fun e => negb (leq (fst e) l)) m.

  (** label_vector.h 18-22: asserts that the label is new *)
  Definition lv_add (v : lvec) (l : L) : outcome (lvec * nat) :=
    match lv_find v l with
    | Some _ => Throw
    | None =>
      let labels := lv_labels v ++ [l] in
      let i := length labels - 1 in
      Ok ({| lv_labels := labels; lv_index := lv_map_set (lv_index v) l i |}, i)
    end.

  (** label_vector.h 52-57 *)
  Definition lv_set (v : lvec) (i : nat) (l : L) : outcome (lvec * nat) :=
    if (i <? length (lv_labels v)) && match lv_find v l with None => true | Some _ => false end
    then Ok ({| lv_labels := list_set (lv_labels v) i l; lv_index := lv_map_set (lv_index v) l i |}, i)
    else Throw.

  (** label_vector.h 44 *)
  Definition lv_resize (v : lvec) (n : nat) : outcome lvec :=
    if length (lv_labels v) <=? n
    then Ok {| lv_labels := vec_resize (lv_labels v) n ldef; lv_index := lv_index v |}
    else Throw.

  (** label_vector.h 46 *)
  Definition lv_clear (v : lvec) : lvec := {| lv_labels := []; lv_index := [] |}.

  (** label_vector.h 13-15: the constructors fill labels_ only *)
  Definition lv_of_size (n : nat) : lvec := {| lv_labels := repeat ldef n; lv_index := [] |}.
  Definition lv_of_labels (ls : list L) : lvec := {| lv_labels := ls; lv_index := [] |}.

  (** label_vector.h 50 *)
  Definition lv_get (v : lvec) (i : nat) : outcome L := vec_get (lv_labels v) i.

  (** a call that throws leaves the container as it was *)
  Definition lv_step (v : lvec) (o : label_op L) : lvec :=
    match o with
    | LAdd l => match lv_add v l with Ok r => fst r | _ => v end
    | LSet i l => match lv_set v i l with Ok r => fst r | _ => v end
    | LResize n => match lv_resize v n with Ok r => r | _ => v end
    | LClear => lv_clear v
    end.
End LabelVector.

(** ** factory: [N] type names, [C] creator functions *)
Section Factory.
  Context {N C A P : Type} (nlt neq : N -> N -> bool) (cdef : C) (apply : C -> A -> P).

  (** factory.h 31-35 *)
  Definition fac_register (m : list (N * C)) (n : N) (c : C) : outcome (list (N * C)) :=
    if fm_contains nlt neq m n then Throw else Ok (fm_assign nlt neq cdef m n c).

  (** factory.h 38-43: find, throw at end(), erase( iterator ) *)
  Definition fac_unregister (m : list (N * C)) (n : N) : outcome (list (N * C)) :=
    let it := fm_find nlt neq m n in
    if it =? length m then Throw else Ok (list_erase m it).

  (** factory.h 46-50 *)
  Definition fac_create (m : list (N * C)) (n : N) (a : A) : outcome P :=
    let it := fm_find nlt neq m n in
    if it =? length m then Throw else do e <- vec_get m it; Ok (apply (snd e) a).

  (** factory.h 53-56; [Ok None] is nullptr *)
  Definition fac_try_create (m : list (N * C)) (n : N) (a : A) : outcome (option P) :=
    let it := fm_find nlt neq m n in
    if it =? length m then Ok None else do e <- vec_get m it; Ok (Some (apply (snd e) a)).

  (** factory.h 59 *)
  Definition fac_has_type (m : list (N * C)) (n : N) : bool :=
    negb (fm_find nlt neq m n =? length m).

  Definition fac_call (m : list (N * C)) (o : fac_op N C) : list (N * C) :=
    match o with
    | FRegister n c => match fac_register m n c with Ok m' => m' | _ => m end
    | FUnregister n => match fac_unregister m n with Ok m' => m' | _ => m end
    end.
End Factory.

(** ** handles into a vector; ids are unsigned of [w] values, i.e. 0 .. w-1, with w-1 = ~0 the invalid id *)
Section Handles.
  Context {T : Type} (w : N).

  (** handle.h 47 *)
  Definition h_invalid : N := (w - 1)%N.
  (** handle.h 82 *)
  Definition span_contains (b e h : N) : bool := ((b <=? h) && (h <? e))%N.
  (** handle.h 95-100, arithmetic modulo w *)
  Definition update_moved_handle (h b e new_begin : N) : N :=
    if span_contains b e h then ((h + w - b) mod w + new_begin) mod w else h.
  (** handle_vector.h 36 (and 46): push_back returns back_handle() = I( size() - 1 ) *)
  Definition hv_push_back (l : list T) (x : T) : list T * N :=
    let l' := l ++ [x] in (l', (N.of_nat (length l' - 1) mod w)%N).
  (** handle_vector.h 40-41 *)
  Definition hv_get (l : list T) (h : N) : outcome T := vec_get l (N.to_nat h).
  (** handle_vector.h 58: std::vector::erase( begin+b, begin+e ); invalid ranges are undefined *)
  Definition hv_erase_span (l : list T) (b e : N) : outcome (list T) :=
    if ((b <=? e) && (e <=? N.of_nat (length l)))%N
    then Ok (firstn (N.to_nat b) l ++ skipn (N.to_nat e) l) else UB.
  (** handle_vector.h 57 *)
  Definition hv_erase (l : list T) (h : N) : outcome (list T * N) :=
    if (h <? N.of_nat (length l))%N then Ok (list_erase l (N.to_nat h), h) else UB.
End Handles.
