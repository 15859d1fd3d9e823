(** Models of the conversions between prop_node and geometric types: prop_node.h 270-346, vec3.h 155-184, quat.h 415-439, scale3.h 64-81, transform.h 22-23 and 47-50, bounds.h 61-86 and shape.cpp 9-119 in /repo/xo.
    A conversion from a tree returns [Ok None] for the result false; the value it may have partly changed is then not modelled.
    The number type, its to_str and from_str are parameters. The accessed flag of the tree read (mutable) is not changed here. *)
From Coq Require Import Ascii String List Arith Bool NArith ZArith.
From Verif Require Import Base Str StrModel CastSpec CastModel PnSpec PnModel EulSpec UtilModel GpnSpec.
Import ListNotations.

(** prop_node.cpp 112-126 and 128-138: the node itself *)
Definition child_key (t : pn) (k : str) : outcome pn :=
  do i <- get_child t k; do kc <- vec_get (pn_children t) i; Ok (snd kc).
Definition child_idx (t : pn) (i : nat) : outcome pn :=
  do i <- get_child_at t i; do kc <- vec_get (pn_children t) i; Ok (snd kc).

Section As.
  Context {V : Type} (conv : pn -> outcome (option V)).
  (** prop_node.h 323-329 *)
  Definition get_as (t : pn) : outcome V := do r <- conv t; match r with Some v => Ok v | None => Throw end.
  (** prop_node.h 331-334, 336-339, 341-346 *)
  Definition get_as_key (t : pn) (k : str) : outcome V := do c <- child_key t k; get_as c.
  Definition get_as_idx (t : pn) (i : nat) : outcome V := do c <- child_idx t i; get_as c.
  Definition get_as_def (t : pn) (k : str) (def : V) : outcome V :=
    match try_get_child t k with Some i => do kc <- vec_get (pn_children t) i; get_as (snd kc) | None => Ok def end.
  (** prop_node.h 371-376 *)
  Definition get_as_any_def (t : pn) (ks : list str) (def : V) : outcome V :=
    match try_get_any_child t ks with Some i => do kc <- vec_get (pn_children t) i; get_as (snd kc) | None => Ok def end.
  (** prop_node.h 284-289 and 291-298 *)
  Definition list_to_pn (to_pn : V -> pn) (l : list V) : pn := fold_left (fun t x => add_child t [] (to_pn x)) l pn_empty.
  Fixpoint list_from_loop (cs : list (str * pn)) : outcome (option (list V)) :=
    match cs with
    | [] => Ok (Some [])
    | kc :: r =>
      do v <- conv (snd kc);
      match v with
      | Some v => do l <- list_from_loop r; Ok (match l with Some l => Some (v :: l) | None => None end)
      | None => Ok None
      end
    end.
  Definition list_from_pn (t : pn) : outcome (option (list V)) := list_from_loop (pn_children t).
  (** prop_node.h 300-307: [arr] is the array before *)
  Fixpoint array_loop (n i : nat) (t : pn) (arr : list V) : outcome (option (list V)) :=
    match n with
    | O => Ok (Some arr)
    | S m =>
      do kc <- vec_get (pn_children t) i;
      do v <- conv (snd kc);
      match v with Some v => do arr <- vec_set arr i v; array_loop m (S i) t arr | None => Ok None end
    end.
  Definition array_from_pn (t : pn) (arr : list V) : outcome (option (list V)) :=
    array_loop (Nat.min (length arr) (pn_size t)) 0 t arr.
End As.

Section Numbers.
  Context {T : Type} (to_str : T -> str) (from_str : str -> option T).
  (** prop_node.h 270-272 and 280-282 *)
  Definition num_to_pn (x : T) : pn := pn_of_value (to_str x).
  Definition num_from_pn (t : pn) : outcome (option T) := Ok (from_str (pn_value t)).
  (** prop_node.h 318-321 *)
  Definition set_num (t : pn) (k : str) (x : T) : pn := set_child t k (num_to_pn x).

  (** vec3.h 155-157 *)
  Definition vec_to_str (v : triple T) : str := to_str (t_x v) ++ lit " " ++ to_str (t_y v) ++ lit " " ++ to_str (t_z v).
  (** vec3.h 177-184 *)
  Definition vec_to_pn (v : triple T) : pn :=
    set_num (set_num (set_num pn_empty (lit "x") (t_x v)) (lit "y") (t_y v)) (lit "z") (t_z v).
  (** vec3.h 163-167, also scale3.h 67-72 *)
  Definition three_from_pn (t : pn) : outcome (option (triple T)) :=
    if is_array t then
      do x <- get_as_idx num_from_pn t 0; do y <- get_as_idx num_from_pn t 1; do z <- get_as_idx num_from_pn t 2; Ok (Some (T3 x y z))
    else
      do x <- get_as_key num_from_pn t (lit "x"); do y <- get_as_key num_from_pn t (lit "y"); do z <- get_as_key num_from_pn t (lit "z");
      Ok (Some (T3 x y z)).
  (** vec3.h 160-175 *)
  Definition vec_from_pn (t : pn) : outcome (option (triple T)) :=
    if pn_size t =? 3 then three_from_pn t
    else if (pn_size t =? 0) && has_value t then
      do vs <- split_str (pn_value t) (lit " " ++ [tab]);
      match vs with
      | [a; b; c] =>
        Ok (match from_str a with
            | Some x => match from_str b with Some y => match from_str c with Some z => Some (T3 x y z) | None => None end | None => None end
            | None => None end)
      | _ => Ok None
      end
    else Ok None.
  (** scale3.h 64-81 *)
  Definition scale_from_pn (t : pn) : outcome (option (triple T)) :=
    if pn_size t =? 3 then three_from_pn t
    else if (pn_size t =? 0) && has_value t then
      do r <- num_from_pn t; Ok (match r with Some s => Some (T3 s s s) | None => None end)
    else Ok None.

  (** quat.h 431-439 *)
  Definition quat_to_pn (q : quad T) : pn :=
    set_num (set_num (set_num (set_num pn_empty (lit "w") (q_w q)) (lit "x") (q_x q)) (lit "y") (q_y q)) (lit "z") (q_z q).
  (** quat.h 415-428; quat_from_euler (from degrees) and the conversion of the order are parameters *)
  Context (order_from : str -> option euler_order) (from_euler : triple T -> euler_order -> quad T).
  Definition quat_from_pn (t : pn) : outcome (option (quad T)) :=
    if (pn_size t =? 4) && has_key t (lit "w") then
      do w <- get_as_key num_from_pn t (lit "w"); do x <- get_as_key num_from_pn t (lit "x");
      do y <- get_as_key num_from_pn t (lit "y"); do z <- get_as_key num_from_pn t (lit "z"); Ok (Some (T4 w x y z))
    else
      do v <- vec_from_pn t;
      match v with
      | Some v => do o <- get_as_def (fun c => Ok (order_from (pn_value c))) t (lit "order") XYZ; Ok (Some (from_euler v o))
      | None => Ok None
      end.

  (** transform.h 22-23: set( key, value ) returns a reference to the child set (prop_node.h 318-321), so the second set is applied to that child, and the child it sets is the one copied *)
  Definition set_at (t : pn) (p : list nat) (k : str) (c : pn) : outcome (pn * list nat) :=
    match node_at t p with
    | None => UB
    | Some n => let (n', i) := get_or_add_child n k in
                Ok (update_at t p (fun _ => update_at n' [i] (fun _ => c)), p ++ [i])
    end.
  Definition transform_to_pn (p : triple T) (q : quad T) : outcome pn :=
    do r <- set_at pn_empty [] (lit "p") (vec_to_pn p);
    do r <- set_at (fst r) (snd r) (lit "q") (quat_to_pn q);
    match node_at (fst r) (snd r) with Some n => Ok n | None => UB end.
  (** transform.h 47-50; operator[] of a const node is get_child (prop_node.h 176) *)
  Definition transform_from_pn (t : pn) : outcome (option (triple T * quad T)) :=
    do cp <- child_key t (lit "p");
    do p <- vec_from_pn cp;
    match p with
    | None => Ok None
    | Some p =>
      do cq <- child_key t (lit "q");
      do q <- quat_from_pn cq;
      Ok (match q with Some q => Some (p, q) | None => None end)
    end.

  (** bounds.h 61-63 *)
  Definition bounds_to_str (b : T * T) : str := to_str (fst b) ++ lit ".." ++ to_str (snd b).
  (** bounds.h 66-73 *)
  Definition bounds_from_str (s : str) : outcome (option (T * T)) :=
    match from_str s with
    | None => Ok None
    | Some lower =>
      match find s (lit "..") 0 with
      | Some p => do r <- substr s (p + 2) None; Ok (match from_str r with Some upper => Some (lower, upper) | None => None end)
      | None => Ok (Some (lower, lower))
      end
    end.
  (** bounds.h 76-86; the default argument is evaluated first *)
  Definition bounds_from_pn (t : pn) : outcome (option (T * T)) :=
    if has_value t then bounds_from_str (pn_value t)
    else if 2 <=? pn_size t then
      do d0 <- get_as_idx num_from_pn t 0;
      do lower <- get_as_any_def num_from_pn t [lit "min"; lit "lower"] d0;
      do d1 <- get_as_idx num_from_pn t 1;
      do upper <- get_as_any_def num_from_pn t [lit "max"; lit "upper"] d1;
      Ok (Some (lower, upper))
    else Ok None.

  (** shape.cpp 9-50; halving, doubling and subtraction of floats are parameters *)
  Context (half twice : T -> T) (sub : T -> T -> T) (unit_x : triple T).
  Definition map3 (f : T -> T) (v : triple T) : triple T := T3 (f (t_x v)) (f (t_y v)) (f (t_z v)).
  Definition sphere_from_pn (t : pn) : outcome (option (shape T)) := do r <- get_as_key num_from_pn t (lit "radius"); Ok (Some (Sphere r)).
  Definition box_from_pn (t : pn) : outcome (option (shape T)) := do d <- get_as_key vec_from_pn t (lit "dim"); Ok (Some (Box (map3 half d))).
  Definition cylinder_from_pn (t : pn) : outcome (option (shape T)) :=
    do r <- get_as_key num_from_pn t (lit "radius"); do h <- get_as_key num_from_pn t (lit "height"); Ok (Some (Cylinder r h)).
  Definition capsule_from_pn (t : pn) : outcome (option (shape T)) :=
    do r <- get_as_key num_from_pn t (lit "radius");
    match try_get_child t (lit "total_length") with
    | Some i => do kc <- vec_get (pn_children t) i; do l <- get_as num_from_pn (snd kc); Ok (Some (Capsule r (sub l (twice r))))
    | None => do h <- get_as_key num_from_pn t (lit "height"); Ok (Some (Capsule r h))
    end.
  Definition cone_from_pn (t : pn) : outcome (option (shape T)) :=
    do r <- get_as_key num_from_pn t (lit "radius"); do h <- get_as_key num_from_pn t (lit "height"); Ok (Some (Cone r h)).
  Definition plane_from_pn (t : pn) : outcome (option (shape T)) :=
    do n <- get_as_def vec_from_pn t (lit "normal") unit_x; Ok (Some (Plane n)).
  (** shape.cpp 52-69 *)
  Definition shape_from_pn (t : pn) : outcome (option (shape T)) :=
    do ty <- get_as_key (fun c => Ok (Some (pn_value c))) t (lit "type");
    let h := hash_string ty in
    if N.eqb h (hash_literal (lit "sphere")) then sphere_from_pn t
    else if N.eqb h (hash_literal (lit "box")) then box_from_pn t
    else if N.eqb h (hash_literal (lit "cylinder")) then cylinder_from_pn t
    else if N.eqb h (hash_literal (lit "capsule")) then capsule_from_pn t
    else if N.eqb h (hash_literal (lit "cone")) then cone_from_pn t
    else if N.eqb h (hash_literal (lit "plane")) then plane_from_pn t
    else Ok None.
  (** shape.cpp 71-119 *)
  Definition typed (name : string) : pn := set_child pn_empty (lit "type") (pn_of_value (lit name)).
  Definition shape_to_pn (s : shape T) : pn :=
    match s with
    | Sphere r => set_num (typed "sphere") (lit "radius") r
    | Box h => set_child (typed "box") (lit "dim") (vec_to_pn (map3 twice h))
    | Cylinder r h => set_num (set_num (typed "cylinder") (lit "radius") r) (lit "height") h
    | Capsule r h => set_num (set_num (typed "capsule") (lit "radius") r) (lit "height") h
    | Cone r h => set_num (set_num (typed "cone") (lit "radius") r) (lit "height") h
    | Plane n => set_child (typed "plane") (lit "normal") (vec_to_pn n)
    end.
End Numbers.

(** string_cast.cpp 33-73 as a parser: the number read or nothing *)
Definition int_from (k : int_kind) (s : str) : option Z := let (z, ok) := from_str_int k s in if ok then Some z else None.
