(** Specification vocabulary for paths; independent of the models. *)
From Coq Require Import Ascii List.
From Verif Require Import Base Str.
Import ListNotations.

Definition slash : ascii := "/"%char.
Definition separator (c : ascii) : Prop := c = slash \/ c = bslash.

(** a single component: text without separators *)
Definition component (s : str) : Prop := Forall (fun c => ~ separator c) s.
Definition dot_free (s : str) : Prop := Forall (fun c => c <> dot) s.

(** [p] is the file [f] in the directory [d]: [f] is what follows the last separator, [d] what precedes it *)
Inductive path_parts : str -> str -> str -> Prop :=
| parts_bare f : component f -> path_parts f [] f
| parts_dir d c f : separator c -> component f -> path_parts (d ++ c :: f) d f.

(** the file name [f] is the stem [s] followed by the extension [e]: the last dot and what follows it *)
Inductive name_parts : str -> str -> str -> Prop :=
| name_bare s : dot_free s -> name_parts s s []
| name_ext s x : dot_free x -> name_parts (s ++ dot :: x) s (dot :: x).

(** a path that ends in the middle of a name: not empty, not ending in a separator or a colon *)
Definition open_path (p : str) : Prop :=
  exists a c, p = a ++ [c] /\ ~ separator c /\ c <> ":"%char.

(** an extension written with its dot *)
Definition dotted (x : str) : str :=
  match x with
  | [] => []
  | c :: _ => if Ascii.eqb c dot then x else dot :: x
  end.

(** the same path text, apart from the kind of separator used *)
Definition same_but_separators (p q : str) : Prop :=
  Forall2 (fun a b => a = b \/ (separator a /\ separator b)) p q.
