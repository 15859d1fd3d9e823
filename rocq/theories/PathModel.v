(** Model of xo::path, /repo/xo/filesystem/path.h and path.cpp.  A path is its data_ string. *)
From Coq Require Import Ascii String List Arith Bool.
From Verif Require Import Base Str StrModel.
Import ListNotations.

(** path.cpp 112-115 *)
Definition last_separator_pos (p : str) : option nat := find_last_of p slashes.

(** path.cpp 6-16 *)
Definition replace_extension (p ext : str) : str :=
  let p := match find_last_of p (lit ".") with Some n => firstn n p | None => p end in
  match ext with
  | [] => p
  | _ => p ++ (if str_begins_with_char ext "."%char then ext else "."%char :: ext)
  end.

(** path.cpp 18-24 *)
Definition remove_filename (p : str) : outcome str :=
  match last_separator_pos p with Some n => substr p 0 (Some n) | None => Ok [] end.

(** path.cpp 53-57 *)
Definition parent_path (p : str) : outcome str :=
  match last_separator_pos p with Some n => substr p 0 (Some n) | None => Ok [] end.

(** path.cpp 59-63 *)
Definition extension (p : str) : outcome str :=
  match find_last_of p (lit ".") with Some n => substr p n None | None => Ok [] end.

(** path.cpp 65-69 *)
Definition extension_no_dot (p : str) : outcome str :=
  match find_last_of p (lit ".") with Some n => substr p (n + 1) None | None => Ok [] end.

(** path.cpp 71-75 *)
Definition filename (p : str) : outcome str :=
  match last_separator_pos p with Some n => substr p (n + 1) None | None => Ok p end.

(** path.cpp 77-83; n2 = npos is larger than every n1, and npos - n1 exceeds every length *)
Definition stem (p : str) : outcome str :=
  let n1 := match last_separator_pos p with None => 0 | Some n => S n end in
  match find_last_of p (lit ".") with
  | None => substr p n1 None
  | Some n2 => substr p n1 (if n1 <=? n2 then Some (n2 - n1) else None)
  end.

(** path.cpp 90-95 *)
Definition has_filename (p : str) : bool :=
  match p with
  | [] => false
  | _ =>
    (match last_separator_pos p with Some n => negb (n =? length p - 1) | None => true end)
    && negb (str_ends_with p (lit ":"))
  end.

(** path.cpp 97-100 *)
Definition has_parent_path (p : str) : bool :=
  match last_separator_pos p with Some _ => true | None => false end.

(** path.cpp 102-105 *)
Definition is_absolute (p : str) : bool :=
  str_begins_with_char p "/"%char || str_begins_with_char p "~"%char
  || (match find_first_of p (lit ":") 0 with Some _ => true | None => false end).

(** path.cpp 117-124, 133 *)
Definition join_path (p q : str) : outcome str :=
  if has_filename p then do t <- trim_left_str q slashes; Ok (p ++ "/"%char :: t)
  else Ok (p ++ q).

(** path.cpp 26-30 *)
Definition replace_filename (p f : str) : outcome str :=
  do d <- remove_filename p; join_path d f.

(** path.cpp 32-37 *)
Definition replace_stem (p s : str) : outcome str :=
  do ext <- extension p; do d <- remove_filename p; join_path d (s ++ ext).

(** path.cpp 39-43 *)
Definition concat_stem (p postfix : str) : outcome str :=
  do s <- stem p; replace_stem p (s ++ postfix).

(** path.cpp 45-51 *)
Definition make_preferred (p : str) : str :=
  map (fun c => if (Ascii.eqb c "/"%char || Ascii.eqb c bslash) && negb (Ascii.eqb c "/"%char) then "/"%char else c) p.
