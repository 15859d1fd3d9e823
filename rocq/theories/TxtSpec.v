(** What the texts of property trees show: the nodes in depth-first order with their depth, one line each. *)
From Coq Require Import Ascii String List Arith Bool ZArith.
From Verif Require Import Base Str PnSpec.
Import ListNotations.

(** the nodes below a node, parents before their children, with depth and key *)
Fixpoint outline (depth : nat) (t : pn) : list (nat * str * pn) :=
  match t with PN _ cs _ => flat_map (fun kc => (depth, fst kc, snd kc) :: outline (S depth) (snd kc)) cs end.

Definition blank_run (n : nat) : str := repeat " "%char n.
(** nodes without a value of their own that have children are shown by their key alone *)
Definition shows_value (t : pn) : Prop := pn_value t <> [] \/ pn_children t = [].
(** a line of [name] at a depth, [column] being where the equals signs are *)
Definition line_shows (column : nat) (depth : nat) (name : str) (t : pn) (l : str) : Prop :=
  (shows_value t -> exists pad, 2 * depth + length name + pad = column /\ l = blank_run (2 * depth) ++ name ++ blank_run pad ++ lit " = " ++ pn_value t) /\
  (~ shows_value t -> l = blank_run (2 * depth) ++ name).
(** lines, each with its end *)
Definition lines_text (ls : list str) : str := concat (map (fun l => l ++ [lf]) ls).

(** a name that can be told apart in a line, and a value that is one line *)
Definition plain_name (k : str) : Prop := ~ In "="%char k /\ ~ In lf k /\ (exists x r, k = x :: r /\ x <> " "%char) /\ last k " "%char <> " "%char.
Definition one_line (v : str) : Prop := ~ In lf v.
Fixpoint plain_tree (t : pn) : Prop :=
  match t with PN v cs _ => fold_right (fun kc p => plain_name (fst kc) /\ one_line (pn_value (snd kc)) /\ plain_tree (snd kc) /\ p) True cs end.

(** a value that was never asked for *)
Definition unread (t : pn) : Prop := pn_value t <> [] /\ pn_flag t = false.
Definition contains_unread (t : pn) : Prop := unread t \/ exists e, In e (outline 0 t) /\ unread (snd e).
Definition unread_line (depth : nat) (k : str) (t : pn) (l : str) : Prop :=
  (unread t -> l = blank_run (2 * depth) ++ k ++ lit " = " ++ pn_value t ++ lit " *") /\ (~ unread t -> l = blank_run (2 * depth) ++ k).

(** the sublist of the elements with a property *)
Inductive selects {A} (P : A -> Prop) : list A -> list A -> Prop :=
| sel_nil : selects P [] []
| sel_take x l s : P x -> selects P l s -> selects P (x :: l) (x :: s)
| sel_skip x l s : ~ P x -> selects P l s -> selects P (x :: l) s.

(** words without a meaning of their own in ZML: letters, digits and _ - + . *)
Definition word_char (x : ascii) : bool :=
  let n := nat_of_ascii x in
  ((48 <=? n) && (n <=? 57)) || ((65 <=? n) && (n <=? 90)) || ((97 <=? n) && (n <=? 122)) || (n =? 95) || (n =? 45) || (n =? 43) || (n =? 46).
Definition word (s : str) : Prop := s <> [] /\ forallb word_char s = true.
(** trees of words: every leaf has a value; the children have words as keys, or none of them has a key and then those with children have no value *)
Inductive word_tree : pn -> Prop :=
| wt_leaf v a : word v -> word_tree (PN v [] a)
| wt_keys v cs a : v = [] \/ word v -> cs <> [] -> Forall (fun kc => word (fst kc) /\ word_tree (snd kc)) cs -> word_tree (PN v cs a)
| wt_array v cs a : v = [] \/ word v -> cs <> [] -> Forall (fun kc => fst kc = [] /\ word_tree (snd kc) /\ (pn_children (snd kc) <> [] -> pn_value (snd kc) = [])) cs -> word_tree (PN v cs a).

(** the level and the name a key asks for: "@4name" asks for level 4, other keys for info, which is level 3 *)
Inductive asks (k : str) : Z -> str -> Prop :=
| asks_level d r : d <= 9 -> k = "@"%char :: ascii_of_nat (48 + d) :: r -> asks k (Z.of_nat d) r
| asks_info : (forall r, k <> "@"%char :: r) -> asks k 3%Z k.
