(** Model of /repo/xo/serialization/prop_node_serializer_ini.cpp. *)
From Coq Require Import Ascii String List Arith Bool.
From Verif Require Import Base Str StrModel PnSpec PnModel.
Import ListNotations.

(** prop_node_serializer_ini.cpp 10-25; std::endl writes a line feed *)
Definition ini_pair (e : str * pn) : str := fst e ++ "="%char :: pn_value (snd e) ++ [lf].
Definition ini_entry (e : str * pn) : str :=
  if 0 <? pn_size (snd e) then "["%char :: fst e ++ ["]"%char; lf] ++ flat_map ini_pair (pn_children (snd e))
  else if has_value (snd e) then ini_pair e
  else [].
Definition write_ini (t : pn) : str := flat_map ini_entry (pn_children t).

(** std::istream::getline( buf, n + 1 ): the characters stored, the text left, and how it ended: end of the stream,
    line feed (extracted, not stored), or buffer full (failbit) *)
Inductive line_end := AtEof | AtLine | Full.
Fixpoint getline (n : nat) (text : str) {struct text} : str * str * line_end :=
  match text with
  | [] => ([], [], AtEof)
  | c :: t =>
    if Ascii.eqb c lf then ([], t, AtLine)
    else match n with
         | O => ([], text, Full)
         | S m => let '(l, r, e) := getline m t in (c :: l, r, e)
         end
  end.

(** read_pn_ and cur_group: the root itself, or a child of it by position *)
Record ini_state := IniSt { ini_root : pn; ini_group : option nat }.

Definition ini_set (s : ini_state) (k v : str) : ini_state :=
  let path := match ini_group s with None => [] | Some i => [i] end in
  IniSt (update_at (ini_root s) path (fun n => set_child n k (pn_of_value v))) (ini_group s).

(** prop_node_serializer_ini.cpp 39-56: one line, as buffer contents *)
Definition ini_process (s : ini_state) (buf : str) : outcome ini_state :=
  let line := c_str buf in
  match line with
  | [] => Ok s
  | c :: _ =>
    if Ascii.eqb c ";"%char then Ok s
    else if (2 <? length line) && Ascii.eqb c "["%char && Ascii.eqb (nth (length line - 1) line nul) "]"%char then
      do name <- substr line 1 (Some (length line - 2));
      Ok (IniSt (add_child (ini_root s) name pn_empty) (Some (pn_size (ini_root s))))
    else
      do kv <- make_key_value_str line (lit "=");
      if str_eqb (fst kv) line then Throw else Ok (ini_set s (fst kv) (snd kv))
  end.

(** prop_node_serializer_ini.cpp 27-59 with ec_ == nullptr: the loop runs while the stream is good, so not after the
    end of the stream was met.  Out of fuel is UB. *)
Fixpoint ini_loop (fuel : nat) (text : str) (s : ini_state) : outcome ini_state :=
  match fuel with
  | O => UB
  | S f =>
    match getline 1023 text with
    | (_, _, Full) => Throw
    | (buf, _, AtEof) => ini_process s buf
    | (buf, rest, AtLine) => do s' <- ini_process s buf; ini_loop f rest s'
    end
  end.
Definition read_ini (root : pn) (text : str) : outcome pn := omap ini_root (ini_loop (S (length text)) text (IniSt root None)).
