(** Model of /repo/xo/container/prop_node.h, prop_node.cpp and parts of prop_node_tools.cpp.
    A node pointer or reference is a path from the root. *)
From Coq Require Import Ascii String List Arith Bool NArith ZArith.
From Verif Require Import Base Str StrModel CastSpec CastModel PnSpec.
Import ListNotations.

Definition hash : ascii := "#"%char.

(** prop_node.h 34, 37 *)
Definition pn_empty : pn := PN [] [] false.
Definition pn_of_value (v : str) : pn := PN v [] false.
(** prop_node.h 100, 113, 125 *)
Definition has_value (t : pn) : bool := match pn_value t with [] => false | _ => true end.
Definition pn_size (t : pn) : nat := length (pn_children t).
Definition pn_is_empty (t : pn) : bool := negb (has_value t) && (pn_size t =? 0).
(** prop_node.h 128: clear() leaves the flag *)
Definition pn_clear (t : pn) : pn := PN [] [] (pn_flag t).
(** prop_node.h 248 *)
Definition access (t : pn) : pn := PN (pn_value t) (pn_children t) true.
(** prop_node.h 59-60 *)
Definition set_value (t : pn) (v : str) : pn := PN v (pn_children t) (pn_flag t).

(** the search loop of prop_node.cpp 114-116, 122-124, 186-188, 194-196, 262-264 *)
Fixpoint child_index (cs : list (str * pn)) (k : str) : option nat :=
  match cs with
  | [] => None
  | kc :: r => if str_eqb (fst kc) k then Some 0 else option_map S (child_index r k)
  end.
(** prop_node.cpp 184-198: try_get_child, as position *)
Definition try_get_child (t : pn) (k : str) : option nat := child_index (pn_children t) k.
(** prop_node.cpp 13-37 *)
Definition has_key (t : pn) (k : str) : bool := match try_get_child t k with Some _ => true | None => false end.
Definition count_key (t : pn) (k : str) : nat := length (filter (fun kc => str_eqb (fst kc) k) (pn_children t)).
(** prop_node.cpp 112-126, 128-138 *)
Definition get_child (t : pn) (k : str) : outcome nat :=
  match try_get_child t k with Some i => Ok i | None => Throw end.
Definition get_child_at (t : pn) (i : nat) : outcome nat := if i <? pn_size t then Ok i else Throw.
(** prop_node.cpp 148-154 *)
Fixpoint try_get_any_child (t : pn) (ks : list str) : option nat :=
  match ks with [] => None | k :: r => match try_get_child t k with Some i => Some i | None => try_get_any_child t r end end.

(** prop_node.cpp 39-53 *)
Fixpoint count_layers (t : pn) : nat :=
  match t with PN _ cs _ => fold_left (fun d kc => Nat.max d (count_layers (snd kc) + 1)) cs 0 end.
Fixpoint count_children (t : pn) : nat :=
  match t with PN _ cs _ => fold_left (fun n kc => n + count_children (snd kc)) cs (length cs) end.
(** prop_node.cpp 55-58, the result (the call also marks the node as accessed through begin()) *)
Definition is_array (t : pn) : bool := forallb (fun kc => match fst kc with [] => true | _ => false end) (pn_children t).

(** prop_node.cpp 60-78 *)
Definition add_child (t : pn) (k : str) (c : pn) : pn := PN (pn_value t) (pn_children t ++ [(k, c)]) (pn_flag t).

(** assignment through a reference *)
Definition upd_child (cs : list (str * pn)) (i : nat) (f : pn -> pn) : list (str * pn) :=
  match nth_error cs i with Some kc => list_set cs i (fst kc, f (snd kc)) | None => cs end.
Fixpoint update_at (t : pn) (p : list nat) (f : pn -> pn) : pn :=
  match p with
  | [] => f t
  | i :: q => PN (pn_value t) (upd_child (pn_children t) i (fun c => update_at c q f)) (pn_flag t)
  end.

(** prop_node.cpp 170-182 *)
Definition try_get_query_key (t : pn) (k : str) : option nat :=
  match try_get_child t k with
  | Some i => Some i
  | None =>
    match k with
    | c :: text =>
      if Ascii.eqb c hash then
        let '(idx, ok) := from_str_int KULong text in
        if ok && (1 <=? idx)%Z && (idx <=? Z.of_nat (pn_size t))%Z then Some (Z.to_nat idx - 1) else None
      else None
    | [] => None
    end
  end.

(** prop_node.cpp 210-218; the recursion is on the rest of the query, [fuel] bounds its length; running out of fuel is [UB] *)
Fixpoint try_get_query_loop (fuel : nat) (t : pn) (q : str) (delim : ascii) : outcome (option (list nat)) :=
  match fuel with
  | O => UB
  | S f =>
    match find_first_of q [delim] 0 with
    | None => Ok (option_map (fun i => [i]) (try_get_query_key t q))
    | Some p =>
      do k <- substr q 0 (Some p);
      match try_get_query_key t k with
      | None => Ok None
      | Some i =>
        do kc <- vec_get (pn_children t) i;
        do rest <- mid_str q (p + 1) None;
        do r <- try_get_query_loop f (snd kc) rest delim;
        Ok (option_map (cons i) r)
      end
    end
  end.
Definition try_get_query (t : pn) (q : str) (delim : ascii) : outcome (option (list nat)) :=
  try_get_query_loop (S (length q)) t q delim.

(** prop_node.cpp 225-241: new tree and the path of the node *)
Fixpoint get_or_add_query_loop (fuel : nat) (t : pn) (q : str) (delim : ascii) : outcome (pn * list nat) :=
  match fuel with
  | O => UB
  | S f =>
    match find_first_of q [delim] 0 with
    | None =>
      match try_get_query_key t q with
      | Some i => Ok (t, [i])
      | None => Ok (add_child t q pn_empty, [pn_size t])
      end
    | Some p =>
      do k <- substr q 0 (Some p);
      match try_get_query_key t k with
      | Some i =>
        do kc <- vec_get (pn_children t) i;
        do rest <- mid_str q (p + 1) None;
        do r <- get_or_add_query_loop f (snd kc) rest delim;
        Ok (PN (pn_value t) (upd_child (pn_children t) i (fun _ => fst r)) (pn_flag t), i :: snd r)
      | None =>
        do rest <- mid_str q (p + 1) None;
        do r <- get_or_add_query_loop f pn_empty rest delim;
        Ok (add_child t k (fst r), pn_size t :: snd r)
      end
    end
  end.
Definition get_or_add_query (t : pn) (q : str) (delim : ascii) : outcome (pn * list nat) :=
  get_or_add_query_loop (S (length q)) t q delim.

(** prop_node.h 401-404 with 48-49, 313-316: the addressed node is assigned *)
Definition set_query (t : pn) (q : str) (v : pn) (delim : ascii) : outcome (pn * list nat) :=
  do r <- get_or_add_query t q delim; Ok (update_at (fst r) (snd r) (fun _ => v), snd r).

(** prop_node.cpp 156-161, prop_node.h 318-321 *)
Definition get_or_add_child (t : pn) (k : str) : pn * nat :=
  match try_get_child t k with Some i => (t, i) | None => (add_child t k pn_empty, pn_size t) end.
Definition set_child (t : pn) (k : str) (v : pn) : pn :=
  let (t', i) := get_or_add_child t k in update_at t' [i] (fun _ => v).

(** prop_node.cpp 260-266: begin() marks the node *)
Definition erase (t : pn) (k : str) : pn * bool :=
  match child_index (pn_children t) k with
  | Some i => (PN (pn_value t) (list_erase (pn_children t) i) true, true)
  | None => (access t, false)
  end.

(** prop_node.cpp 268-276; the inner try_get_query uses the default delimiter *)
Fixpoint erase_query_loop (fuel : nat) (t : pn) (q : str) (delim : ascii) : outcome (pn * bool) :=
  match fuel with
  | O => UB
  | S f =>
    match find_first_of q [delim] 0 with
    | None => Ok (erase t q)
    | Some p =>
      do k <- substr q 0 (Some p);
      do c <- try_get_query t k "."%char;
      match c with
      | None => Ok (t, false)
      | Some path =>
        match node_at t path with
        | None => UB
        | Some u =>
          do rest <- mid_str q (p + 1) None;
          do r <- erase_query_loop f u rest delim;
          Ok (update_at t path (fun _ => fst r), snd r)
        end
      end
    end
  end.
Definition erase_query (t : pn) (q : str) (delim : ascii) : outcome (pn * bool) :=
  erase_query_loop (S (length q)) t q delim.

(** prop_node.cpp 100-110; the loop also marks [other] as accessed at every visited level, which is not modelled here *)
Fixpoint merge (t other : pn) (overwrite : bool) {struct other} : pn :=
  match other with
  | PN ov oc _ =>
    PN (if overwrite then ov else pn_value t)
       ((fix go (oc tc : list (str * pn)) {struct oc} : list (str * pn) :=
           match oc with
           | [] => tc
           | kc :: r =>
             go r (match child_index tc (fst kc) with
                   | Some i => upd_child tc i (fun c => merge c (snd kc) overwrite)
                   | None => tc ++ [(fst kc, snd kc)]
                   end)
           end) oc (pn_children t))
       (pn_flag t)
  end.
(** prop_node.cpp 90-93 *)
Definition append (t other : pn) : pn := PN (pn_value t) (pn_children t ++ pn_children other) (pn_flag t).

(** prop_node.cpp 278-296 *)
Definition is_accessed (t : pn) : bool := pn_flag t || negb (has_value t).
Fixpoint count_unaccessed (t : pn) : nat :=
  match t with
  | PN _ cs _ => fold_left (fun n kc => n + count_unaccessed (snd kc)) cs (if is_accessed t then 0 else 1)
  end.
Fixpoint set_accessed_recursively (b : bool) (t : pn) : pn :=
  match t with PN v cs _ => PN v (map (fun kc => (fst kc, set_accessed_recursively b (snd kc))) cs) b end.

(** prop_node.cpp 298-315 *)
Fixpoint pn_eqb (t u : pn) : bool :=
  match t, u with
  | PN v1 c1 _, PN v2 c2 _ =>
    str_eqb v1 v2 && (length c1 =? length c2) &&
    (fix go (c1 c2 : list (str * pn)) : bool :=
       match c1, c2 with
       | x :: r1, y :: r2 => str_eqb (fst x) (fst y) && pn_eqb (snd x) (snd y) && go r1 r2
       | _, _ => true
       end) c1 c2
  end.

(** prop_node.cpp 200-208 *)
Fixpoint find_recursively (t : pn) (k : str) : option (list nat) :=
  match t with
  | PN _ cs _ =>
    (fix go (cs : list (str * pn)) (i : nat) : option (list nat) :=
       match cs with
       | [] => None
       | kc :: r =>
         if str_eqb (fst kc) k then Some [i]
         else match find_recursively (snd kc) k with Some p => Some (i :: p) | None => go r (S i) end
       end) cs 0
  end.

(** prop_node.cpp 243-252; [here] is the path of the node searched from, pointer comparison is comparison of paths *)
Definition path_eqb (p q : list nat) : bool := if list_eq_dec Nat.eq_dec p q then true else false.
Fixpoint find_index_of (n i : nat) (here target : list nat) : option nat :=
  match n with O => None | S m => if path_eqb (here ++ [i]) target then Some i else find_index_of m (S i) here target end.
Fixpoint find_parent (t : pn) (here target : list nat) : option (list nat * nat) :=
  match t with
  | PN _ cs _ =>
    match find_index_of (length cs) 0 here target with
    | Some i => Some (here, i)
    | None =>
      (fix go (cs : list (str * pn)) (i : nat) : option (list nat * nat) :=
         match cs with
         | [] => None
         | kc :: r => match find_parent (snd kc) (here ++ [i]) target with Some x => Some x | None => go r (S i) end
         end) cs 0
    end
  end.
Definition try_find_parent (root : pn) (target : list nat) : option (list nat * nat) := find_parent root [] target.

(** prop_node_tools.cpp 96-109 *)
Fixpoint find_query_from (t : pn) (here target : list nat) (delim : ascii) : option str :=
  if path_eqb here target then Some []
  else
    match t with
    | PN _ cs _ =>
      (fix go (cs : list (str * pn)) (i : nat) : option str :=
         match cs with
         | [] => None
         | kc :: r =>
           match find_query_from (snd kc) (here ++ [i]) target delim with
           | Some s => Some (match s with [] => fst kc | _ => fst kc ++ delim :: s end)
           | None => go r (S i)
           end
         end) cs 0
    end.
Definition find_query_to_node (root : pn) (target : list nat) (delim : ascii) : option str :=
  find_query_from root [] target delim.

(** prop_node_tools.cpp 152-166; [fuel] bounds the depth *)
Fixpoint make_query_loop (fuel : nat) (root : pn) (target : list nat) (s : str) : outcome str :=
  match fuel with
  | O => UB
  | S f =>
    match try_find_parent root target with
    | None => Ok s
    | Some (par, idx) =>
      match node_at root par with
      | None => UB
      | Some u =>
        do kc <- vec_get (pn_children u) idx;
        let s' := match s with [] => fst kc | _ => fst kc ++ "."%char :: s end in
        match par with [] => Ok s' | _ => make_query_loop f root par s' end
      end
    end
  end.
Definition make_prop_node_query (root : pn) (target : list nat) : outcome str :=
  make_query_loop (S (length target)) root target [].

(** prop_node_tools.cpp 111-134; argv[0] and the arguments after it *)
Fixpoint from_arg_loop (args : list str) (t : pn) (pending : option nat) : pn :=
  match args with
  | [] => t
  | a :: r =>
    if str_begins_with_char a "-" then from_arg_loop r (add_child t (tl a) pn_empty) (Some (pn_size t))
    else match pending with
    | Some i => from_arg_loop r (update_at t [i] (fun c => set_value c a)) None
    | None => let (t', i) := get_or_add_child t [] in from_arg_loop r (update_at t' [i] (fun c => set_value c a)) None
    end
  end.
Definition prop_node_from_arg (name : str) (args : list str) : pn := from_arg_loop args (pn_of_value name) None.

(** reading operations; the tree after the call *)
Definition read_step (t : pn) (o : read_op) : pn :=
  match o with
  (* prop_node.h 131 *)
  | RStr p => update_at t p access
  (* prop_node.h 213-217, prop_node.cpp 55-58 *)
  | RIterate p => update_at t p access
  (* prop_node.cpp 163-168: asserts the index first *)
  | RKey p i => update_at t p (fun u => if i <? pn_size u then access u else u)
  (* prop_node.h 291-298 with 280-282: every child's get_str, then the node itself *)
  | RStrings p => update_at t p (fun u => PN (pn_value u) (map (fun kc => (fst kc, access (snd kc))) (pn_children u)) true)
  (* prop_node.cpp 291-296 *)
  | RMark p b => update_at t p (set_accessed_recursively b)
  (* prop_node.h 137, 113; prop_node.cpp 184-198, 278-289 *)
  | RPeek _ | RSize _ | RChild _ _ | RCount _ => t
  end.

(** a history of reads, latest first *)
Definition run_reads (t : pn) (h : list read_op) : pn := fold_right (fun o t => read_step t o) t h.

(** typed values: to_prop_node / from_prop_node, prop_node.h 270-298, for a type with to_str and from_str *)
Section Typed.
  Context {T : Type} (to_str : T -> str) (from_str : str -> option T).
  (** prop_node.h 323-329 *)
  Definition pn_get (t : pn) : outcome T := match from_str (pn_value t) with Some v => Ok v | None => Throw end.
  (** prop_node.h 331-334, 341-346 *)
  Definition pn_get_key (t : pn) (k : str) : outcome T :=
    do i <- get_child t k; do kc <- vec_get (pn_children t) i; pn_get (snd kc).
  Definition pn_get_key_def (t : pn) (k : str) (def : T) : outcome T :=
    match try_get_child t k with
    | Some i => do kc <- vec_get (pn_children t) i; pn_get (snd kc)
    | None => Ok def
    end.
  (** prop_node.h 371-376, 378-383 *)
  Definition pn_get_any (t : pn) (ks : list str) : outcome T :=
    match try_get_any_child t ks with
    | Some i => do kc <- vec_get (pn_children t) i; pn_get (snd kc)
    | None => Throw
    end.
  Definition pn_get_any_def (t : pn) (ks : list str) (def : T) : outcome T :=
    match try_get_any_child t ks with
    | Some i => do kc <- vec_get (pn_children t) i; pn_get (snd kc)
    | None => Ok def
    end.
  (** prop_node.h 392-399 *)
  Fixpoint get_all_loop (cs : list (str * pn)) (k : str) : outcome (list T) :=
    match cs with
    | [] => Ok []
    | kc :: r =>
      if str_eqb (fst kc) k then do v <- pn_get (snd kc); do l <- get_all_loop r k; Ok (v :: l)
      else get_all_loop r k
    end.
  Definition pn_get_all (t : pn) (k : str) : outcome (list T) := get_all_loop (pn_children t) k.
  (** prop_node.h 284-289 with 412-415 *)
  Definition pn_of_vector (l : list T) : pn := fold_left (fun t x => add_child t [] (pn_of_value (to_str x))) l pn_empty.
  (** prop_node.h 291-298, 323-329: get< vector<T> > *)
  Fixpoint vector_loop (cs : list (str * pn)) : outcome (list T) :=
    match cs with
    | [] => Ok []
    | kc :: r => do v <- pn_get (snd kc); do l <- vector_loop r; Ok (v :: l)
    end.
  Definition pn_get_vector (t : pn) : outcome (list T) := vector_loop (pn_children t).
End Typed.
