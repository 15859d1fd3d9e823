(** What it means for a property tree to describe a number, a vector, a quaternion or a shape; independent of the model of the conversions. *)
From Coq Require Import Ascii String List Arith Bool.
From Verif Require Import Base Str StrSpec PnSpec.
Import ListNotations.

(** [c] is the first child of [t] with key [k] *)
Definition child_is (t : pn) (k : str) (c : pn) : Prop :=
  exists i, first_child t k i /\ nth_error (pn_children t) i = Some (k, c).

Record triple (T : Type) := T3 { t_x : T; t_y : T; t_z : T }.
Arguments T3 {T}. Arguments t_x {T}. Arguments t_y {T}. Arguments t_z {T}.
Record quad (T : Type) := T4 { q_w : T; q_x : T; q_y : T; q_z : T }.
Arguments T4 {T}. Arguments q_w {T}. Arguments q_x {T}. Arguments q_y {T}. Arguments q_z {T}.

Section Numbers.
  Context {T : Type} (from_str : str -> option T).
  (** the first child with key [k] holds the number [x] *)
  Definition num_at (t : pn) (k : str) (x : T) : Prop := exists c, child_is t k c /\ from_str (pn_value c) = Some x.
  (** the tree is a list [ a b c ] of three numbers *)
  Definition describes_list (t : pn) (v : triple T) : Prop :=
    exists a b c, map fst (pn_children t) = [[]; []; []] /\ map snd (pn_children t) = [a; b; c] /\
      from_str (pn_value a) = Some (t_x v) /\ from_str (pn_value b) = Some (t_y v) /\ from_str (pn_value c) = Some (t_z v).
  (** the tree is a group { x y z } in any order, and nothing else *)
  Definition describes_group (t : pn) (v : triple T) : Prop :=
    length (pn_children t) = 3 /\ num_at t (lit "x") (t_x v) /\ num_at t (lit "y") (t_y v) /\ num_at t (lit "z") (t_z v).
  (** the tree is only a text of three numbers separated by blanks or tabs *)
  Definition describes_text (t : pn) (v : triple T) : Prop :=
    pn_children t = [] /\ exists a b c, pieces (one_of (lit " " ++ [tab])) (pn_value t) [a; b; c] /\
      from_str a = Some (t_x v) /\ from_str b = Some (t_y v) /\ from_str c = Some (t_z v).
  (** the tree is a group { w x y z } in any order, and nothing else *)
  Definition describes_four (t : pn) (q : quad T) : Prop :=
    length (pn_children t) = 4 /\ num_at t (lit "w") (q_w q) /\ num_at t (lit "x") (q_x q) /\ num_at t (lit "y") (q_y q) /\ num_at t (lit "z") (q_z q).
  (** the number under the first of two keys that is present, or else the number [d] *)
  Definition num_under (t : pn) (k1 k2 : str) (d x : T) : Prop :=
    num_at t k1 x \/ (~ In k1 (pn_keys t) /\ num_at t k2 x) \/ (~ In k1 (pn_keys t) /\ ~ In k2 (pn_keys t) /\ x = d).
  Definition describes_vec (t : pn) (v : triple T) : Prop :=
    describes_list t v \/ describes_group t v \/ describes_text t v.
End Numbers.

(** a shape: its kind and dimensions *)
Inductive shape (T : Type) :=
| Sphere (radius : T)
| Box (half_dim : triple T)
| Cylinder (radius height : T)
| Capsule (radius height : T)
| Cone (radius height : T)
| Plane (normal : triple T).
Arguments Sphere {T}. Arguments Box {T}. Arguments Cylinder {T}. Arguments Capsule {T}. Arguments Cone {T}. Arguments Plane {T}.
Definition shape_name {T} (s : shape T) : str :=
  match s with
  | Sphere _ => lit "sphere" | Box _ => lit "box" | Cylinder _ _ => lit "cylinder"
  | Capsule _ _ => lit "capsule" | Cone _ _ => lit "cone" | Plane _ => lit "plane"
  end.
Definition shape_names : list str := map lit ["sphere"; "box"; "cylinder"; "capsule"; "cone"; "plane"]%string.

(** the dimensions a tree gives for a shape *)
Section Dimensions.
  Context {T : Type} (from_str : str -> option T) (half twice : T -> T) (sub : T -> T -> T) (unit_x : triple T).
  Definition dimensions (t : pn) (s : shape T) : Prop :=
    match s with
    | Sphere r => num_at from_str t (lit "radius") r
    | Box h => exists c d, child_is t (lit "dim") c /\ describes_vec from_str c d /\ h = T3 (half (t_x d)) (half (t_y d)) (half (t_z d))
    | Cylinder r h | Cone r h => num_at from_str t (lit "radius") r /\ num_at from_str t (lit "height") h
    | Capsule r h => num_at from_str t (lit "radius") r /\
        ((exists l, num_at from_str t (lit "total_length") l /\ h = sub l (twice r)) \/
         (~ In (lit "total_length") (pn_keys t) /\ num_at from_str t (lit "height") h))
    | Plane n => (exists c, child_is t (lit "normal") c /\ describes_vec from_str c n) \/ (~ In (lit "normal") (pn_keys t) /\ n = unit_x)
    end.
  (** all numbers of a shape *)
  Definition shape_numbers (s : shape T) : list T :=
    match s with
    | Sphere r => [r]
    | Box h => [twice (t_x h); twice (t_y h); twice (t_z h)]
    | Cylinder r h | Capsule r h | Cone r h => [r; h]
    | Plane n => [t_x n; t_y n; t_z n]
    end.
End Dimensions.
