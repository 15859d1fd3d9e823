(** Which trees INI text can hold; independent of the models. *)
From Coq Require Import Ascii String List Arith.
From Verif Require Import Base Str StrSpec StrModel PnSpec.
Import ListNotations.

(** no white space at either end *)
Definition no_outer_blanks (s : str) : Prop :=
  (forall c r, s = c :: r -> ~ one_of whitespace c) /\ (forall c r, s = r ++ [c] -> ~ one_of whitespace c).

(** text without line break or NUL *)
Definition one_line (s : str) : Prop := ~ In lf s /\ ~ In nul s.

(** key and value that make a line of their own: not mistaken for a comment or a group, and at most 1023 characters *)
Definition ini_item (k v : str) : Prop :=
  one_line k /\ one_line v /\ no_outer_blanks k /\ no_outer_blanks v /\ ~ In "="%char k /\
  (forall r, k <> ";"%char :: r) /\ ~ ((exists r, k = "["%char :: r) /\ exists r, v = r ++ ["]"%char]) /\
  length k + 1 + length v <= 1023.

Definition leaf (n : pn) : Prop := pn_children n = [].

(** top-level values first, then groups of values; keys unique where they are looked up *)
Definition ini_tree (t : pn) : Prop :=
  pn_value t = [] /\
  exists items groups, pn_children t = items ++ groups /\
    NoDup (map fst items) /\
    Forall (fun e => leaf (snd e) /\ pn_value (snd e) <> [] /\ ini_item (fst e) (pn_value (snd e))) items /\
    Forall (fun g => pn_value (snd g) = [] /\ pn_children (snd g) <> [] /\ NoDup (map fst (pn_children (snd g))) /\
      fst g <> [] /\ one_line (fst g) /\ length (fst g) + 2 <= 1023 /\
      Forall (fun e => leaf (snd e) /\ ini_item (fst e) (pn_value (snd e))) (pn_children (snd g))) groups.

(** text made of lines *)
Definition text_of (ls : list str) : str := flat_map (fun l => l ++ [lf]) ls.
Definition ini_line (l : str) : Prop := one_line l /\ length l <= 1023.
(** empty lines and comments *)
Definition ini_ignored (l : str) : Prop := l = [] \/ exists r, l = ";"%char :: r.
