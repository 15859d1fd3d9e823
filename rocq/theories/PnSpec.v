(** What property trees are and what queries address in them; independent of the model of prop_node. *)
From Coq Require Import Ascii String List Arith Bool ZArith.
From Verif Require Import Base Str StrSpec CastSpec CastModel.
Import ListNotations.

(** a node: value, children in order with their keys (keys may repeat or be empty), "accessed" flag *)
Inductive pn : Type := PN (value : str) (children : list (str * pn)) (accessed : bool).
Definition pn_value (t : pn) : str := match t with PN v _ _ => v end.
Definition pn_children (t : pn) : list (str * pn) := match t with PN _ c _ => c end.
Definition pn_flag (t : pn) : bool := match t with PN _ _ a => a end.
Definition pn_keys (t : pn) : list str := map fst (pn_children t).

(** a node reference (pointer) is the list of child positions from the root *)
Fixpoint node_at (t : pn) (p : list nat) : option pn :=
  match p with
  | [] => Some t
  | i :: q => match nth_error (pn_children t) i with Some kc => node_at (snd kc) q | None => None end
  end.
(** the key under which the node at a non-empty path is stored *)
Fixpoint key_at (t : pn) (p : list nat) : option str :=
  match p with
  | [] => None
  | i :: q =>
    match nth_error (pn_children t) i with
    | Some kc => match q with [] => Some (fst kc) | _ => key_at (snd kc) q end
    | None => None
    end
  end.

(** position [i] is the first child with key [k] *)
Definition first_child (t : pn) (k : str) (i : nat) : Prop :=
  nth_error (pn_keys t) i = Some k /\ forall j, (j < i)%nat -> nth_error (pn_keys t) j <> Some k.

(** one part of a query: a key, or # followed by a number counting children from 1 *)
Definition addresses_child (t : pn) (k : str) (i : nat) : Prop :=
  first_child t k i \/
  (~ In k (pn_keys t) /\ exists text, k = "#"%char :: text /\
     from_str_int KULong text = (Z.of_nat (S i), true) /\ (i < length (pn_children t))%nat).

Inductive addresses : pn -> list str -> list nat -> Prop :=
| addr_here t : addresses t [] []
| addr_child t k i kc ks p :
    addresses_child t k i -> nth_error (pn_children t) i = Some kc -> addresses (snd kc) ks p ->
    addresses t (k :: ks) (i :: p).

(** the parts of a query string *)
Definition query_parts (delim : ascii) (q : str) (ks : list str) : Prop :=
  ks <> [] /\ q = join [delim] ks /\ Forall (fun k => ~ In delim k) ks.

(** paths *)
Definition is_prefix {A} (p q : list A) : Prop := exists r, q = p ++ r.

(** all proper descendants in depth-first order, parents before their children, with key and path *)
Fixpoint preorder (t : pn) : list (str * list nat) :=
  match t with
  | PN _ cs _ =>
    (fix go (cs : list (str * pn)) (i : nat) : list (str * list nat) :=
       match cs with
       | [] => []
       | kc :: r => (fst kc, [i]) :: map (fun e => (fst e, i :: snd e)) (preorder (snd kc)) ++ go r (S i)
       end) cs 0
  end.

(** all nodes including the root *)
Fixpoint all_nodes (t : pn) : list pn :=
  match t with PN _ cs _ => t :: flat_map (fun kc => all_nodes (snd kc)) cs end.

(** same tree up to accessed flags *)
Inductive same_tree : pn -> pn -> Prop :=
| same_node v cs1 cs2 a1 a2 :
    Forall2 (fun x y => fst x = fst y /\ same_tree (snd x) (snd y)) cs1 cs2 -> same_tree (PN v cs1 a1) (PN v cs2 a2).

(** node reached by keys alone, taking the first child with the key at each level *)
Inductive at_keys : pn -> list str -> pn -> Prop :=
| at_here t : at_keys t [] t
| at_child t k i c ks u : first_child t k i -> nth_error (pn_children t) i = Some (k, c) -> at_keys c ks u -> at_keys t (k :: ks) u.

(** keys distinct among siblings, everywhere in the tree *)
Inductive distinct_keys : pn -> Prop :=
| distinct_node v cs a : NoDup (map fst cs) -> Forall (fun kc => distinct_keys (snd kc)) cs -> distinct_keys (PN v cs a).

(** reading operations on a node of a tree *)
Inductive read_op :=
| RStr (p : list nat)          (* get_str, get<string> *)
| RPeek (p : list nat)         (* peek_str *)
| RIterate (p : list nat)      (* begin(), range-for, is_array *)
| RSize (p : list nat)
| RChild (p : list nat) (k : str)   (* try_get_child, has_key *)
| RKey (p : list nat) (i : nat)     (* get_key *)
| RStrings (p : list nat)      (* get< vector<string> > *)
| RMark (p : list nat) (b : bool)   (* set_accessed_recursively *)
| RCount (p : list nat).       (* count_unaccessed, is_accessed *)

(** does the operation read the node at path [x] itself, in tree [t]? *)
Definition reads (t : pn) (o : read_op) (x : list nat) : Prop :=
  match o with
  | RStr p | RIterate p => x = p
  | RKey p i => x = p /\ exists u, node_at t p = Some u /\ (i < length (pn_children u))%nat
  | RStrings p => x = p \/ exists i, x = p ++ [i]
  | _ => False
  end.
(** the flag of the node at [x] after the history, latest operation first *)
Inductive flag_after (t : pn) (x : list nat) : list read_op -> bool -> Prop :=
| fa_start u : node_at t x = Some u -> flag_after t x [] (pn_flag u)
| fa_read o h b : reads t o x -> flag_after t x h b -> flag_after t x (o :: h) true
| fa_mark p v h b : is_prefix p x -> flag_after t x h b -> flag_after t x (RMark p v :: h) v
| fa_other o h b : ~ reads t o x -> (forall p v, o = RMark p v -> ~ is_prefix p x) -> flag_after t x h b -> flag_after t x (o :: h) b.

(** keys of [ks] that are not among [old], in order *)
Definition new_keys (old ks : list str) : list str :=
  filter (fun k => if in_dec (list_eq_dec ascii_dec) k old then false else true) ks.

(** a path along which every key is non-empty, free of the delimiter, and the first among its siblings *)
Inductive plain_path (delim : ascii) : pn -> list nat -> list str -> Prop :=
| plain_here t : plain_path delim t [] []
| plain_step t i kc p ks :
    nth_error (pn_children t) i = Some kc -> first_child t (fst kc) i -> fst kc <> [] -> ~ In delim (fst kc) ->
    plain_path delim (snd kc) p ks -> plain_path delim t (i :: p) (fst kc :: ks).

(** what erasing the node [k] under the node at [pp] leaves *)
Definition erased_at (t t' : pn) (pp : list nat) (k : str) : Prop :=
  (exists u pre c post, node_at t pp = Some u /\ pn_children u = pre ++ (k, c) :: post /\ ~ In k (map fst pre) /\
     node_at t' pp = Some (PN (pn_value u) (pre ++ post) true)) /\
  (forall x, ~ is_prefix pp x -> ~ is_prefix x pp -> node_at t' x = node_at t x) /\
  (forall n u, n < length pp -> node_at t (firstn n pp) = Some u ->
     exists u', node_at t' (firstn n pp) = Some u' /\ pn_value u' = pn_value u /\ pn_keys u' = pn_keys u /\ pn_flag u' = pn_flag u).

(** [o] is the path of the first entry with key [k] in the list *)
Definition first_in (k : str) (l : list (str * list nat)) (o : option (list nat)) : Prop :=
  match o with
  | Some p => exists pre post, l = pre ++ (k, p) :: post /\ Forall (fun e => fst e <> k) pre
  | None => Forall (fun e => fst e <> k) l
  end.

