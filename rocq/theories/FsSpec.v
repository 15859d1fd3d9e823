(** Specification vocabulary for the file system functions; independent of the models. *)
From Coq Require Import Ascii String List Arith ZArith.
From Verif Require Import Base Str StrSpec CastModel PathSpec.
Import ListNotations.

(** An operating system as seen through stat and mkdir: what exists, what is a directory, and making one directory
    (new state, and whether it succeeded). *)
Record os := Os {
  os_state : Type;
  os_exists : os_state -> str -> bool;
  os_isdir : os_state -> str -> bool;
  os_mkdir : os_state -> str -> os_state * bool }.

(** What POSIX guarantees: a directory exists; mkdir succeeds only for a name that does not exist, which is a
    directory afterwards; it never removes anything or replaces a directory; a failed mkdir changes nothing. *)
Record os_ok (o : os) : Prop := OsOk {
  dir_exists : forall f p, os_isdir o f p = true -> os_exists o f p = true;
  mkdir_new : forall f p f', os_mkdir o f p = (f', true) -> os_exists o f p = false /\ os_isdir o f' p = true;
  mkdir_keeps : forall f p f' b q, os_mkdir o f p = (f', b) ->
    (os_isdir o f q = true -> os_isdir o f' q = true) /\ (os_exists o f q = true -> os_exists o f' q = true);
  mkdir_failed : forall f p f', os_mkdir o f p = (f', false) -> f' = f }.

(** a name for a new entry of a directory *)
Definition proper_name (c : str) : Prop := c <> [] /\ component c /\ c <> lit "." /\ c <> lit "..".

(** In addition, nothing but an existing name or a missing parent prevents making a directory (enough space and
    permissions); the empty path denotes nothing; a new directory is empty; what contains a directory is a directory. *)
Record os_free (o : os) : Prop := OsFree {
  mkdir_bare : forall f c, proper_name c -> os_exists o f c = false -> snd (os_mkdir o f c) = true;
  mkdir_root : forall f c, proper_name c -> os_exists o f (slash :: c) = false -> snd (os_mkdir o f (slash :: c)) = true;
  mkdir_in : forall f p c, proper_name c -> os_isdir o f p = true -> os_exists o f (p ++ slash :: c) = false ->
    snd (os_mkdir o f (p ++ slash :: c)) = true;
  empty_path : forall f, os_exists o f [] = false /\ os_mkdir o f [] = (f, false);
  mkdir_empty : forall f p f' c, os_mkdir o f p = (f', true) -> proper_name c -> os_exists o f' (p ++ slash :: c) = false;
  parent_isdir : forall f p c, p <> [] -> proper_name c -> os_isdir o f (p ++ slash :: c) = true -> os_isdir o f p = true }.

(** c1/c2/.../cn or /c1/c2/.../cn *)
Inductive plain_path : str -> Prop :=
| plain_bare c : proper_name c -> plain_path c
| plain_root c : proper_name c -> plain_path (slash :: c)
| plain_in p c : plain_path p -> proper_name c -> plain_path (p ++ slash :: c).

(** [q] is [p] or one of its parents *)
Inductive ancestor_or_self : str -> str -> Prop :=
| anc_self p : ancestor_or_self p p
| anc_up p c q : proper_name c -> p <> [] -> ancestor_or_self q p -> ancestor_or_self q (p ++ slash :: c).

(** name (1), name (2), ... *)
Definition candidate (folder : str) (i : nat) : str :=
  match i with O => folder | _ => folder ++ lit " (" ++ to_string (Z.of_nat i) ++ lit ")" end.

(** the first element of a list satisfying a test *)
Inductive first_such {A} (test : A -> bool) : list A -> A -> Prop :=
| first_here x l : test x = true -> first_such test (x :: l) x
| first_later x l y : test x = false -> first_such test l y -> first_such test (x :: l) y.

(** [full] is the path [f] taken relative to the directory [dir]: a separator in between unless [dir] is empty or ends
    in a separator or colon *)
Definition under (dir f full : str) : Prop :=
  (open_path dir /\ exists t, trimmed_left separator f t /\ full = dir ++ slash :: t) \/ (~ open_path dir /\ full = dir ++ f).

(** paths that are taken as they are: starting with / or ~ or containing a colon *)
Definition absolute (p : str) : Prop := (exists r, p = slash :: r) \/ (exists r, p = "~"%char :: r) \/ In ":"%char p.

(** where find_file and try_find_file look for a file, in this order *)
Inductive find_places (here f : str) : list str -> Prop :=
| fp_absolute full : absolute f -> under here f full -> find_places here f [f; full]
| fp_relative full : ~ absolute f -> under here f full -> find_places here f [full].
Inductive try_find_places (here f : str) : list str -> Prop :=
| tfp_absolute : absolute f -> try_find_places here f [f]
| tfp_relative full : ~ absolute f -> under here f full -> try_find_places here f [full].
