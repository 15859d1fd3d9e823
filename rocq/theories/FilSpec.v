(** Files and their contents as an operating system offers them; trees of directories.  Independent of filesystem.cpp. *)
From Coq Require Import Ascii String List Arith ZArith Bool.
From Verif Require Import Base Str StrSpec PathSpec FsSpec.
Import ListNotations.

(** an operating system with directories ([FsSpec.os]) and files: reading a whole file, opening for writing (which
    empties it), opening for appending, and writing one byte at the end of an open file *)
Record fos := Fos {
  f_os : os;
  f_read : os_state f_os -> str -> option str;
  f_trunc : os_state f_os -> str -> os_state f_os * bool;
  f_app : os_state f_os -> str -> os_state f_os * bool;
  f_put : os_state f_os -> str -> ascii -> os_state f_os * bool;
  (** the two names denote different files *)
  f_other : str -> str -> Prop }.

Definition content (o : option str) : str := match o with Some t => t | None => [] end.

(** a failed call changes nothing; a file that was opened exists; other files are not changed *)
Record fos_ok (o : fos) : Prop := FosOk {
  trunc_ok : forall f p f', f_trunc o f p = (f', true) -> f_read o f' p = Some [];
  trunc_failed : forall f p f', f_trunc o f p = (f', false) -> f' = f;
  app_ok : forall f p f', f_app o f p = (f', true) -> f_read o f' p = Some (content (f_read o f p));
  app_failed : forall f p f', f_app o f p = (f', false) -> f' = f;
  put_ok : forall f p c f' b t, f_read o f p = Some t -> f_put o f p c = (f', b) -> f_read o f' p = Some (if b then t ++ [c] else t);
  mkdir_read : forall f d f' b p, plain_path p -> os_mkdir (f_os o) f d = (f', b) -> f_read o f' p = f_read o f p;
  trunc_other : forall f p q, f_other o p q -> f_read o (fst (f_trunc o f p)) q = f_read o f q;
  app_other : forall f p q, f_other o p q -> f_read o (fst (f_app o f p)) q = f_read o f q;
  put_other : forall f p c q, f_other o p q -> f_read o (fst (f_put o f p c)) q = f_read o f q }.

(** [p] lies in an existing directory and is not the name of a directory *)
Inductive openable (o : os) (f : os_state o) : str -> Prop :=
| openable_bare c : proper_name c -> os_isdir o f c = false -> openable o f c
| openable_root c : proper_name c -> os_isdir o f (slash :: c) = false -> openable o f (slash :: c)
| openable_in d c : proper_name c -> os_isdir o f d = true -> os_isdir o f (d ++ slash :: c) = false -> openable o f (d ++ slash :: c).
(** enough space, and nothing else prevents opening a file *)
Record fos_free (o : fos) : Prop := FosFree {
  put_room : forall f p c, snd (f_put o f p c) = true;
  trunc_in : forall f p, openable (f_os o) f p -> snd (f_trunc o f p) = true;
  app_in : forall f p, openable (f_os o) f p -> snd (f_app o f p) = true }.

(** calls that write files *)
Inductive fcall := Save (p s : str) | Append (p s : str).
Definition fcall_path (c : fcall) : str := match c with Save p _ | Append p _ => p end.
(** what is in the file [p] after these calls *)
Fixpoint contents_after (p : str) (old : option str) (h : list fcall) : option str :=
  match h with
  | [] => old
  | Save q s :: r => contents_after p (if str_eqb q p then Some s else old) r
  | Append q s :: r => contents_after p (if str_eqb q p then Some (content old ++ s) else old) r
  end.

(** * directories *)
(** the entries of a directory in the order in which the system gives them *)
Inductive ftree := FileEntry | DirEntry (es : list (str * ftree)).
(** [f] (a path with forward slashes below [dir]) is an entry at depth [depth] of the entries [es] of [dir], with last name [name] *)
Inductive found : list (str * ftree) -> str -> nat -> str -> str -> Prop :=
| found_here es dir n t : In (n, t) es -> found es dir 0 (dir ++ slash :: n) n
| found_below es dir n sub depth f name : In (n, DirEntry sub) es -> found sub (dir ++ slash :: n) depth f name -> found es dir (S depth) f name.
(** no two entries of a directory have the same name, and names contain no slash *)
Inductive sound_tree : list (str * ftree) -> Prop :=
| sound_intro es : NoDup (map fst es) -> (forall n t, In (n, t) es -> ~ In slash n /\ n <> []) ->
    (forall n sub, In (n, DirEntry sub) es -> sound_tree sub) -> sound_tree es.
(** the number of levels of directories below *)
Fixpoint height (t : ftree) : nat :=
  match t with FileEntry => 0 | DirEntry es => S (fold_right (fun x m => max (height (snd x)) m) 0 es) end.
