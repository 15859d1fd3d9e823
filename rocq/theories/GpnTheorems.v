(** Properties C105-C110: reading geometric types and shapes from property trees and writing them. *)
From Coq Require Import Ascii String List Arith Bool NArith ZArith.
From Verif Require Import Base Str StrSpec CastSpec CastModel PnSpec PnModel EulSpec UtilModel GpnSpec GpnModel GpnProofs.
Import ListNotations.

(** ** C105: vectors and scales *)
(** a vector is read exactly from a list of three numbers, from a group x, y, z in any order, or from a text of three numbers *)
Theorem C105_vec_read : forall (T : Type) (from_str : str -> option T) (t : pn) (v : triple T),
  vec_from_pn from_str t = Ok (Some v) <-> describes_vec from_str t v.
Proof. exact @vec_from_ok. Qed.
Print Assumptions C105_vec_read.
Example C105_vec_read_ex :
  let n := fun s => pn_of_value (lit s) in
  describes_group (int_from KInt) (PN [] [(lit "z", n "3"); (lit "x", n "1"); (lit "y", n "-2")]%string false) (T3 1 (-2) 3)%Z /\
  vec_from_pn (int_from KInt) (PN [] [([], n "1"); ([], n "-2"); ([], n "3")]%string false) = Ok (Some (T3 1 (-2) 3)%Z) /\
  vec_from_pn (int_from KInt) (n " 1  -2 3 "%string) = Ok (Some (T3 1 (-2) 3)%Z).
Proof.
  split; [|split; reflexivity]. split; [reflexivity|]. split; [|split].
  - exists (pn_of_value (lit "1")). split; [|reflexivity]. apply child_is_tl; [discriminate|]. apply child_is_hd.
  - exists (pn_of_value (lit "-2")). split; [|reflexivity]. do 2 (apply child_is_tl; [discriminate|]). apply child_is_hd.
  - exists (pn_of_value (lit "3")). split; [|reflexivity]. apply child_is_hd.
Qed.

(** everything else is refused: with an error if there are three children, with the result false otherwise *)
Theorem C105_vec_refused : forall (T : Type) (from_str : str -> option T) (t : pn),
  (forall v, ~ describes_vec from_str t v) ->
  (length (pn_children t) = 3 -> vec_from_pn from_str t = Throw) /\
  (length (pn_children t) <> 3 -> vec_from_pn from_str t = Ok None).
Proof. exact vec_refused_assembled. Qed.
Print Assumptions C105_vec_refused.
Example C105_vec_refused_ex : vec_from_pn (int_from KInt) (pn_of_value (lit "1 2")) = Ok None /\
  vec_from_pn (int_from KInt) (PN [] [(lit "x", pn_of_value (lit "1")); (lit "y", pn_of_value (lit "2")); (lit "w", pn_of_value (lit "3"))] false) = Throw.
Proof. split; reflexivity. Qed.

(** what was written is read back: as a tree, and as text if no number is written with blanks *)
Theorem C105_vec_round_trip : forall (T : Type) (to_str : T -> str) (from_str : str -> option T) (v : triple T),
  (forall x, In x [t_x v; t_y v; t_z v] -> from_str (to_str x) = Some x) ->
  vec_from_pn from_str (vec_to_pn to_str v) = Ok (Some v) /\
  ((forall x, In x [t_x v; t_y v; t_z v] -> to_str x <> [] /\ Forall (fun c => c <> " "%char /\ c <> tab) (to_str x)) ->
   vec_from_pn from_str (pn_of_value (vec_to_str to_str v)) = Ok (Some v)).
Proof. exact vec_round_trip_assembled. Qed.
Print Assumptions C105_vec_round_trip.
Example C105_vec_round_trip_ex : forall x, In x [7; -8; 0]%Z -> int_from KInt (to_str_int KInt x) = Some x.
Proof. intros x [<-|[<-|[<-|[]]]]; reflexivity. Qed.

(** a scale is read from a list, from a group, or from one number used for all directions *)
Theorem C105_scale_read : forall (T : Type) (from_str : str -> option T) (t : pn) (v : triple T),
  scale_from_pn from_str t = Ok (Some v) <->
  describes_list from_str t v \/ describes_group from_str t v \/
  (pn_children t = [] /\ pn_value t <> [] /\ exists s, from_str (pn_value t) = Some s /\ v = T3 s s s).
Proof. exact @scale_from_ok. Qed.
Print Assumptions C105_scale_read.
Example C105_scale_read_ex : scale_from_pn (int_from KInt) (pn_of_value (lit "5")) = Ok (Some (T3 5 5 5)%Z).
Proof. reflexivity. Qed.

(** ** C106: quaternions *)
(** a quaternion is read exactly from a group w, x, y, z, or from anything that is a vector of angles, which are always taken in the order x, y, z *)
Theorem C106_quat_read : forall (T : Type) (from_str : str -> option T) (order_from : str -> option euler_order) (from_euler : triple T -> euler_order -> quad T) (t : pn) (q : quad T),
  quat_from_pn from_str order_from from_euler t = Ok (Some q) <->
  describes_four from_str t q \/ exists v, describes_vec from_str t v /\ q = from_euler v XYZ.
Proof. exact @quat_from_ok. Qed.
Print Assumptions C106_quat_read.
Example C106_quat_read_ex :
  quat_from_pn (int_from KInt) (fun _ => None) (fun v _ => T4 0 (t_x v) (t_y v) (t_z v))%Z (pn_of_value (lit "10 20 30")) = Ok (Some (T4 0 10 20 30)%Z).
Proof. reflexivity. Qed.
Theorem C106_quat_round_trip : forall (T : Type) (to_str : T -> str) (from_str : str -> option T) (order_from : str -> option euler_order) (from_euler : triple T -> euler_order -> quad T) (q : quad T),
  (forall x, In x [q_w q; q_x q; q_y q; q_z q] -> from_str (to_str x) = Some x) ->
  quat_from_pn from_str order_from from_euler (quat_to_pn to_str q) = Ok (Some q).
Proof. exact @quat_round_trip. Qed.
Print Assumptions C106_quat_round_trip.
Example C106_quat_round_trip_ex : forall x, In x [1; 0; -5; 2147483647]%Z -> int_from KInt (to_str_int KInt x) = Some x.
Proof. intros x [<-|[<-|[<-|[<-|[]]]]]; reflexivity. Qed.
(** the code looks for an entry "order" that chooses the order of the angles; a tree with such an entry is never accepted *)
Theorem C106_quat_order_refuted : forall (T : Type) (from_str : str -> option T) (order_from : str -> option euler_order) (from_euler : triple T -> euler_order -> quad T) (t : pn),
  In (lit "order") (pn_keys t) -> forall q, quat_from_pn from_str order_from from_euler t <> Ok (Some q).
Proof. exact @quat_no_order. Qed.
Print Assumptions C106_quat_order_refuted.
Example C106_quat_order_refuted_ex :
  let n := fun s => pn_of_value (lit s) in
  let t := PN [] [(lit "x", n "1"); (lit "y", n "2"); (lit "z", n "3"); (lit "order", n "zyx")]%string false in
  In (lit "order") (pn_keys t) /\
  quat_from_pn (int_from KInt) (fun _ => Some ZYX) (fun v _ => T4 0 (t_x v) (t_y v) (t_z v))%Z t = Ok None.
Proof. split; [cbn; tauto|reflexivity]. Qed.

(** ** C107: transforms *)
Theorem C107_transform_read : forall (T : Type) (from_str : str -> option T) (order_from : str -> option euler_order) (from_euler : triple T -> euler_order -> quad T) (t : pn) (p : triple T) (q : quad T),
  transform_from_pn from_str order_from from_euler t = Ok (Some (p, q)) <->
  exists cp cq, child_is t (lit "p") cp /\ describes_vec from_str cp p /\ child_is t (lit "q") cq /\
    (describes_four from_str cq q \/ exists v, describes_vec from_str cq v /\ q = from_euler v XYZ).
Proof. exact @transform_from_ok. Qed.
Print Assumptions C107_transform_read.
Example C107_transform_read_ex :
  transform_from_pn (int_from KInt) (fun _ => None) (fun v _ => T4 0 (t_x v) (t_y v) (t_z v))%Z
    (PN [] [(lit "q", pn_of_value (lit "4 5 6")); (lit "p", pn_of_value (lit "1 2 3"))] false) = Ok (Some (T3 1 2 3, T4 0 4 5 6)%Z).
Proof. reflexivity. Qed.
(** a transform converted to a tree has lost its position, whatever it was, and cannot be read back *)
Theorem C107_transform_round_trip_refuted : forall (T : Type) (to_str : T -> str) (from_str : str -> option T) (order_from : str -> option euler_order) (from_euler : triple T -> euler_order -> quad T) (p p' : triple T) (q : quad T),
  exists t, transform_to_pn to_str p q = Ok t /\ transform_to_pn to_str p' q = Ok t /\ transform_from_pn from_str order_from from_euler t = Throw.
Proof. exact transform_round_trip_refuted_assembled. Qed.
Print Assumptions C107_transform_round_trip_refuted.
Example C107_transform_round_trip_refuted_ex :
  transform_to_pn (to_str_int KInt) (T3 1 2 3)%Z (T4 4 5 6 7)%Z =
  Ok (PN [] [(lit "w", pn_of_value (lit "4")); (lit "x", pn_of_value (lit "5")); (lit "y", pn_of_value (lit "6")); (lit "z", pn_of_value (lit "7"))] false).
Proof. reflexivity. Qed.

(** ** C108: bounds *)
(** integer bounds survive being written and read *)
Theorem C108_int_bounds_round_trip : forall (k : int_kind) (a b : Z),
  (kind_min k <= a <= kind_max k)%Z -> (kind_min k <= b <= kind_max k)%Z ->
  bounds_from_str (int_from k) (bounds_to_str (to_str_int k) (a, b)) = Ok (Some (a, b)).
Proof. exact int_bounds_round_trip. Qed.
Print Assumptions C108_int_bounds_round_trip.
Example C108_int_bounds_round_trip_ex : (kind_min KInt <= -5 <= kind_max KInt)%Z /\ bounds_to_str (to_str_int KInt) (-5, 17)%Z = lit "-5..17".
Proof. split; [vm_compute; split; discriminate|reflexivity]. Qed.
(** and so do bounds of any type whose numbers can be read in front of ".." *)
Theorem C108_bounds_round_trip : forall (T : Type) (to_str : T -> str) (from_str : str -> option T) (a b : T),
  (forall r, from_str (to_str a ++ lit ".." ++ r) = Some a) -> from_str (to_str b) = Some b ->
  first_occurrence (to_str a ++ lit "..") (lit "..") 0 (length (to_str a)) ->
  bounds_from_str from_str (bounds_to_str to_str (a, b)) = Ok (Some (a, b)).
Proof. exact @bounds_text. Qed.
Print Assumptions C108_bounds_round_trip.
Example C108_bounds_round_trip_ex : first_occurrence (lit "0.5..") (lit "..") 0 (length (lit "0.5")).
Proof.
  split; [apply Nat.le_0_l|]. split; [exists (lit "0.5"), []; split; reflexivity|].
  intros j [_ Hj] (u & w & E & Hu). subst j. destruct u as [|? [|? [|? u]]]; cbn in E; try discriminate E.
  do 3 apply le_S_n in Hj. inversion Hj.
Qed.
(** a group gives bounds exactly if its first two entries are numbers; named entries win over positions *)
Theorem C108_bounds_group : forall (T : Type) (from_str : str -> option T) (t : pn) (l u : T),
  pn_value t = [] ->
  bounds_from_pn from_str t = Ok (Some (l, u)) <->
  exists a b d0 d1, nth_error (map snd (pn_children t)) 0 = Some a /\ nth_error (map snd (pn_children t)) 1 = Some b /\
    from_str (pn_value a) = Some d0 /\ from_str (pn_value b) = Some d1 /\
    num_under from_str t (lit "min") (lit "lower") d0 l /\ num_under from_str t (lit "max") (lit "upper") d1 u.
Proof. exact (fun T => @bounds_group_ok T (fun _ => [])). Qed.
Print Assumptions C108_bounds_group.
Example C108_bounds_group_ex :
  bounds_from_pn (int_from KInt) (PN [] [(lit "max", pn_of_value (lit "9")); (lit "min", pn_of_value (lit "2"))] false) = Ok (Some (2, 9)%Z) /\
  bounds_from_pn (int_from KInt) (PN [] [([], pn_of_value (lit "2")); ([], pn_of_value (lit "9"))] false) = Ok (Some (2, 9)%Z).
Proof. split; reflexivity. Qed.
(** naming both bounds is not enough (an unrelated first entry is an error), and a missing one is not reported (the other takes its place) *)
Theorem C108_bounds_named_refuted :
  (exists t, num_at (int_from KInt) t (lit "min") 1%Z /\ num_at (int_from KInt) t (lit "max") 2%Z /\ bounds_from_pn (int_from KInt) t = Throw) /\
  (exists t, num_at (int_from KInt) t (lit "max") 5%Z /\ ~ In (lit "min") (pn_keys t) /\ ~ In (lit "lower") (pn_keys t) /\ bounds_from_pn (int_from KInt) t = Ok (Some (5, 5)%Z)).
Proof.
  split.
  - exists (PN [] [(lit "name", pn_of_value (lit "a")); (lit "min", pn_of_value (lit "1")); (lit "max", pn_of_value (lit "2"))] false).
    split; [|split; [|reflexivity]].
    + exists (pn_of_value (lit "1")). split; [|reflexivity]. apply child_is_tl; [discriminate|]. apply child_is_hd.
    + exists (pn_of_value (lit "2")). split; [|reflexivity]. do 2 (apply child_is_tl; [discriminate|]). apply child_is_hd.
  - exists (PN [] [(lit "max", pn_of_value (lit "5")); (lit "step", pn_of_value (lit "1"))] false).
    split; [|split; [|split; [|reflexivity]]].
    + exists (pn_of_value (lit "5")). split; [|reflexivity]. apply child_is_hd.
    + cbn. intuition discriminate.
    + cbn. intuition discriminate.
Qed.
Print Assumptions C108_bounds_named_refuted.

(** ** C109: shapes *)
(** a tree whose type is the name of a kind of shape is read as that kind, exactly with the dimensions it gives *)
Theorem C109_shape_read : forall (T : Type) (from_str : str -> option T) (half twice : T -> T) (sub : T -> T -> T) (unit_x : triple T) (t c : pn) (s : shape T),
  child_is t (lit "type") c -> pn_value c = shape_name s ->
  shape_from_pn from_str half twice sub unit_x t = Ok (Some s) <-> dimensions from_str half twice sub unit_x t s.
Proof. exact (fun T => @shape_read T (fun _ => [])). Qed.
Print Assumptions C109_shape_read.
Example C109_shape_read_ex :
  let n := fun s => pn_of_value (lit s) in
  shape_from_pn (int_from KInt) (fun x => x / 2)%Z (fun x => 2 * x)%Z Z.sub (T3 1 0 0)%Z
    (PN [] [(lit "height", n "7"); (lit "total_length", n "10"); (lit "radius", n "3"); (lit "type", n "capsule")]%string false) = Ok (Some (Capsule 3 4)%Z) /\
  shape_from_pn (int_from KInt) (fun x => x / 2)%Z (fun x => 2 * x)%Z Z.sub (T3 1 0 0)%Z
    (PN [] [(lit "type", n "plane")]%string false) = Ok (Some (Plane (T3 1 0 0))%Z).
Proof. split; vm_compute; reflexivity. Qed.
(** every shape survives being written and read *)
Theorem C109_shape_round_trip : forall (T : Type) (to_str : T -> str) (from_str : str -> option T) (half twice : T -> T) (sub : T -> T -> T) (unit_x : triple T) (s : shape T),
  (forall x, In x (shape_numbers twice s) -> from_str (to_str x) = Some x) ->
  (forall h, s = Box h -> forall x, In x [t_x h; t_y h; t_z h] -> half (twice x) = x) ->
  shape_from_pn from_str half twice sub unit_x (shape_to_pn to_str twice s) = Ok (Some s).
Proof. exact @shape_round_trip. Qed.
Print Assumptions C109_shape_round_trip.
Example C109_shape_round_trip_ex :
  (forall x, In x (shape_numbers (fun x => 2 * x)%Z (Box (T3 1 2 3)%Z)) -> int_from KInt (to_str_int KInt x) = Some x) /\
  (forall x, In x [1; 2; 3]%Z -> (2 * x / 2 = x)%Z).
Proof. split; intros x [<-|[<-|[<-|[]]]]; reflexivity. Qed.
(** a tree without a type is an error; one whose type has the hash of none of the six names is refused *)
Theorem C109_shape_unknown : forall (T : Type) (from_str : str -> option T) (half twice : T -> T) (sub : T -> T -> T) (unit_x : triple T) (t : pn),
  (~ In (lit "type") (pn_keys t) -> shape_from_pn from_str half twice sub unit_x t = Throw) /\
  (forall c, child_is t (lit "type") c -> Forall (fun n => hash_string (pn_value c) <> hash_literal n) shape_names ->
     shape_from_pn from_str half twice sub unit_x t = Ok None).
Proof. exact @shape_unknown. Qed.
Print Assumptions C109_shape_unknown.
Example C109_shape_unknown_ex : Forall (fun n => hash_string (lit "torus") <> hash_literal n) shape_names.
Proof. repeat constructor; vm_compute; discriminate. Qed.
(** the type is recognised by its hash only: a type text that is none of the six names can be accepted *)
Theorem C109_shape_type_exact_refuted : exists t c, child_is t (lit "type") c /\ ~ In (pn_value c) shape_names /\
  exists s, shape_from_pn (int_from KInt) (fun x => x / 2)%Z (fun x => 2 * x)%Z Z.sub (T3 1 0 0)%Z t = Ok (Some s).
Proof.
  exists (PN [] [(lit "type", pn_of_value (lit "sphere" ++ nul :: lit "!")); (lit "radius", pn_of_value (lit "3"))] false), (pn_of_value (lit "sphere" ++ nul :: lit "!")).
  split; [apply child_is_hd|]. split; [cbn; intuition discriminate|]. exists (Sphere 3%Z). vm_compute. reflexivity.
Qed.
Print Assumptions C109_shape_type_exact_refuted.

(** ** C110: lists and arrays of anything *)
Theorem C110_list_read : forall (V : Type) (conv : pn -> outcome (option V)) (t : pn) (l : list V),
  list_from_pn conv t = Ok (Some l) <-> Forall2 (fun c v => conv c = Ok (Some v)) (map snd (pn_children t)) l.
Proof. exact list_read_assembled. Qed.
Print Assumptions C110_list_read.
Theorem C110_list_round_trip : forall (V : Type) (conv : pn -> outcome (option V)) (to_pn : V -> pn) (l : list V),
  Forall (fun x => conv (to_pn x) = Ok (Some x)) l -> list_from_pn conv (list_to_pn to_pn l) = Ok (Some l).
Proof. exact @list_round_trip. Qed.
Print Assumptions C110_list_round_trip.
Example C110_list_round_trip_ex :
  let conv := vec_from_pn (int_from KInt) in
  let v := [[T3 1 2 3; T3 4 5 6]; []; [T3 7 8 9]]%Z in
  Forall (Forall (fun x => conv (vec_to_pn (to_str_int KInt) x) = Ok (Some x))) v /\
  list_from_pn (list_from_pn conv) (list_to_pn (list_to_pn (vec_to_pn (to_str_int KInt))) v) = Ok (Some v).
Proof. split; [repeat constructor|vm_compute; reflexivity]. Qed.
(** a fixed-size array takes as many entries as there are, keeps the rest of its elements and ignores further entries *)
Theorem C110_array_read : forall (V : Type) (conv : pn -> outcome (option V)) (t : pn) (arr r : list V),
  array_from_pn conv t arr = Ok (Some r) <->
  length r = length arr /\
  (forall j, j < length arr -> j < length (pn_children t) -> exists kc v, nth_error (pn_children t) j = Some kc /\ conv (snd kc) = Ok (Some v) /\ nth_error r j = Some v) /\
  (forall j, length (pn_children t) <= j -> nth_error r j = nth_error arr j).
Proof. exact array_read_assembled. Qed.
Print Assumptions C110_array_read.
Example C110_array_read_ex :
  array_from_pn (num_from_pn (int_from KInt)) (PN [] [([], pn_of_value (lit "5")); ([], pn_of_value (lit "6"))] false) [1; 2; 3]%Z = Ok (Some [5; 6; 3]%Z).
Proof. reflexivity. Qed.
