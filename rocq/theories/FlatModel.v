(** Model of the sorted-vector containers:
    /repo/xo/container/flat_map.h, flat_set.h, sorted_vector.h.
    Iterators are positions in the vector, [end()] is the length. *)
From Coq Require Import List Arith Bool.
From Verif Require Import Base FlatSpec.
Import ListNotations.

Section FlatMap.
  (** key type with its operator< and operator==, value type with its default V() *)
  Context {K V : Type} (klt keq : K -> K -> bool) (vdef : V).

  (** flat_map.h 19, 130: the only data member is a vector of pairs *)
  Definition fmap := list (K * V).

  (** flat_map.h 62-67: std::lower_bound with [kvp.first < key] *)
  Definition fm_lower_bound (m : fmap) (k : K) : nat :=
    partition_search (fun kvp => klt (fst kvp) k) m.

  (** flat_map.h 69-74: std::upper_bound with [key < kvp.first] *)
  Definition fm_upper_bound (m : fmap) (k : K) : nat :=
    partition_search (fun kvp => negb (klt k (fst kvp))) m.

  (** [it != end() && it->first == key], used in 78, 82, 92, 100, 108 *)
  Definition fm_hit (m : fmap) (it : nat) (k : K) : bool :=
    match nth_error m it with
    | Some kvp => keq (fst kvp) k
    | None => false
    end.

  (** flat_map.h 76-83 *)
  Definition fm_find (m : fmap) (k : K) : nat :=
    let it := fm_lower_bound m k in
    if fm_hit m it k then it else length m.

  (** flat_map.h 85-87: std::count_if over the whole vector *)
  Definition fm_count (m : fmap) (k : K) : nat :=
    length (filter (fun kvp => keq (fst kvp) k) m).

  (** flat_map.h 88 *)
  Definition fm_contains (m : fmap) (k : K) : bool :=
    negb (fm_find m k =? length m).

  (** flat_map.h 90-104 (both overloads): returns position and "inserted" flag *)
  Definition fm_insert (m : fmap) (k : K) (v : V) : fmap * (nat * bool) :=
    let it := fm_lower_bound m k in
    if fm_hit m it k then (m, (it, false))
    else (list_insert m it (k, v), (it, true)).

  (** flat_map.h 106-111: operator[] returns a reference, here the position of the entry *)
  Definition fm_index (m : fmap) (k : K) : fmap * nat :=
    let it := fm_lower_bound m k in
    if fm_hit m it k then (m, it)
    else (list_insert m it (k, vdef), it).

  (** [m[k] = v]: operator[] followed by assignment through the reference *)
  Definition fm_assign (m : fmap) (k : K) (v : V) : fmap :=
    let (m', it) := fm_index m k in
    match nth_error m' it with
    | Some (k', _) => list_set m' it (k', v)
    | None => m'
    end.

  (** flat_map.h 115-125 (and 113): at() throws if find() gives end() *)
  Definition fm_at (m : fmap) (k : K) : outcome V :=
    let it := fm_find m k in
    if it =? length m then Throw
    else do kvp <- vec_get m it; Ok (snd kvp).

  (** flat_map.h 56-60: erase by key, returns the number of erased entries *)
  Definition fm_erase (m : fmap) (k : K) : fmap * nat :=
    let it := fm_find m k in
    if it =? length m then (m, 0) else (list_erase m it, 1).

  (** flat_map.h 34-35 *)
  Definition fm_clear (m : fmap) : fmap := [].
  Definition fm_size (m : fmap) : nat := length m.

  (** flat_map.h 29, 131-133: the vector is copied, then std::sort by key.
      std::sort is modelled by insertion sort; the order of equal keys is unspecified in C++,
      here it is the order in the list. *)
  Fixpoint fm_sort_insert (kv : K * V) (m : fmap) : fmap :=
    match m with
    | [] => [kv]
    | x :: t => if klt (fst x) (fst kv) then x :: fm_sort_insert kv t else kv :: m
    end.
  Definition fm_of_list (l : list (K * V)) : fmap := fold_right fm_sort_insert [] l.

  (** the calls of the specification's operation list *)
  Definition fm_step (m : fmap) (o : map_op K V) : fmap :=
    match o with
    | MAssign k v => fm_assign m k v
    | MTouch k => fst (fm_index m k)
    | MInsert k v => fst (fm_insert m k v)
    | MErase k => fst (fm_erase m k)
    | MClear => fm_clear m
    end.
End FlatMap.

Section FlatSet.
  Context {K : Type} (klt keq : K -> K -> bool).

  (** flat_set.h 16, 106 *)
  Definition fset := list K.

  (** flat_set.h 59-64 *)
  Definition fs_lower_bound (s : fset) (k : K) : nat :=
    partition_search (fun x => klt x k) s.

  (** [it != end() && *it == key] *)
  Definition fs_hit (s : fset) (it : nat) (k : K) : bool :=
    match nth_error s it with Some x => keq x k | None => false end.

  (** flat_set.h 73-80 *)
  Definition fs_find (s : fset) (k : K) : nat :=
    let it := fs_lower_bound s k in
    if fs_hit s it k then it else length s.

  (** flat_set.h 82-84 *)
  Definition fs_count (s : fset) (k : K) : nat := length (filter (fun x => keq x k) s).

  (** flat_set.h 85 *)
  Definition fs_contains (s : fset) (k : K) : bool := negb (fs_find s k =? length s).

  (** flat_set.h 87-99 *)
  Definition fs_insert (s : fset) (k : K) : fset * (nat * bool) :=
    let it := fs_lower_bound s k in
    if fs_hit s it k then (s, (it, false)) else (list_insert s it k, (it, true)).

  (** flat_set.h 53-57 *)
  Definition fs_erase (s : fset) (k : K) : fset * nat :=
    let it := fs_find s k in
    if it =? length s then (s, 0) else (list_erase s it, 1).

  (** flat_set.h 31-32 *)
  Definition fs_clear (s : fset) : fset := [].
  Definition fs_size (s : fset) : nat := length s.

  (** flat_set.h 26, 107-109: initializer list, then std::sort *)
  Fixpoint fs_sort_insert (k : K) (s : fset) : fset :=
    match s with
    | [] => [k]
    | x :: t => if klt x k then x :: fs_sort_insert k t else k :: s
    end.
  Definition fs_of_list (l : list K) : fset := fold_right fs_sort_insert [] l.

  Definition fs_step (s : fset) (o : set_op K) : fset :=
    match o with
    | SInsert k => fst (fs_insert s k)
    | SErase k => fst (fs_erase s k)
    | SClear => fs_clear s
    end.
End FlatSet.

Section SortedVector.
  Context {T : Type} (tlt teq : T -> T -> bool).

  (** sorted_vector.h 31-33: std::vector::insert at std::upper_bound *)
  Definition sv_insert (v : list T) (e : T) : list T * nat :=
    let it := partition_search (fun x => negb (tlt e x)) v in
    (list_insert v it e, it).

  (** sorted_vector.h 46-54 *)
  Definition sv_find (v : list T) (e : T) : nat :=
    let it := partition_search (fun x => tlt x e) v in
    match nth_error v it with
    | Some x => if teq x e then it else length v
    | None => length v
    end.

  (** sorted_vector.h 38-40: while ( it2 != end() && *it2 == e ) ++it2; counts the run at the front *)
  Fixpoint sv_run (l : list T) (e : T) : nat :=
    match l with
    | [] => 0
    | x :: t => if teq x e then S (sv_run t e) else 0
    end.

  (** sorted_vector.h 35-44 *)
  Definition sv_remove (v : list T) (e : T) : list T :=
    let it := sv_find v e in
    if it =? length v then v
    else
      let it2 := S it + sv_run (skipn (S it) v) e in
      firstn it v ++ skipn it2 v.

  (** sorted_vector.h 29: initializer list constructor, std::sort (order of equivalent elements
      unspecified in C++; here: order in the list) *)
  Fixpoint sv_sort_insert (e : T) (v : list T) : list T :=
    match v with
    | [] => [e]
    | x :: t => if tlt x e then x :: sv_sort_insert e t else e :: v
    end.
  Definition sv_of_list (l : list T) : list T := fold_right sv_sort_insert [] l.

  Definition sv_step (v : list T) (o : bag_op T) : list T :=
    match o with
    | BInsert e => fst (sv_insert v e)
    | BRemove e => sv_remove v e
    end.
End SortedVector.
