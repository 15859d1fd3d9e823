(** Models of /repo/xo/string/dictionary.h, string/stack_string.h, string/pattern_matcher.h and tidy_identifier/tidy_type_name of
    system/system_tools.cpp. *)
From Coq Require Import Ascii String List Arith Bool.
From Verif Require Import Base Str StrSpec StrModel DicSpec.
Import ListNotations.

(** ** dictionary.h *)
Section Dictionary.
  Context {T : Type} (eqb : T -> T -> bool).
  (** container_tools.h 43-45; [None] is end() *)
  Fixpoint find_if {A} (p : A -> bool) (l : list A) : option A := match l with [] => None | x :: r => if p x then Some x else find_if p r end.
  (** 17-21, 24-28, 31-34 *)
  Definition dict_name (d : list (T * str)) (e : T) : outcome str := match find_if (fun p => eqb e (fst p)) d with None => Throw | Some p => Ok (snd p) end.
  Definition dict_element (d : list (T * str)) (s : str) : outcome T := match find_if (fun p => str_eqb s (snd p)) d with None => Throw | Some p => Ok (fst p) end.
  Definition dict_element_or (d : list (T * str)) (s : str) (value_not_found : T) : T :=
    match find_if (fun p => str_eqb s (snd p)) d with None => value_not_found | Some p => fst p end.
  (** 44-50; the keys of the table are C strings *)
  Fixpoint lookup (value : str) (table : list (str * T)) : outcome T :=
    match table with [] => Throw | (k, v) :: r => if str_eqb value (c_str k) then Ok v else lookup value r end.
End Dictionary.

(** ** stack_string.h *)
Record stack_string := SStr { value_ : str; sizes_ : list nat (* last pushed first *) }.
Definition ss_new : stack_string := SStr [] [].
(** 15, 17 *)
Definition ss_str (s : stack_string) : str := value_ s.
Definition ss_set (s : stack_string) (v : str) : stack_string := SStr v (match v with [] => [] | _ => [0] end).
(** 18 *)
Definition ss_push (s : stack_string) (v : str) : stack_string := SStr (value_ s ++ v) (length (value_ s) :: sizes_ s).
(** 19; back() of an empty vector is undefined; resize pads with NUL when growing *)
Definition ss_pop (s : stack_string) : outcome stack_string :=
  match sizes_ s with [] => UB | n :: r => Ok (SStr (firstn n (value_ s) ++ repeat nul (n - length (value_ s))) r) end.
Definition ss_do (s : outcome stack_string) (op : part_op) : outcome stack_string :=
  do x <- s; match op with SetTo v => Ok (ss_set x v) | Append v => Ok (ss_push x v) | RemoveLast => ss_pop x end.
Definition ss_run (ops : list part_op) : outcome stack_string := fold_left ss_do ops (Ok ss_new).

(** ** pattern_matcher.h *)
Section Patterns.
  (** fnmatch( pattern, string, FNM_NOESCAPE ) == 0 on C strings *)
  Context (fnmatch : str -> str -> bool).
  (** string_tools.cpp 388-396 *)
  Definition pattern_match (s pattern : str) : bool := fnmatch (c_str pattern) (c_str s).
  (** 14-17 *)
  Definition pm_default : list str := [].
  Definition pm_make (pattern delimiters : str) : outcome (list str) := split_str pattern delimiters.
  (** 20-25 *)
  Fixpoint pm_match (patterns : list str) (s : str) : bool :=
    match patterns with [] => false | p :: r => if pattern_match s p then true else pm_match r s end.
  (** 28-29 *)
  Definition pm_empty (patterns : list str) : bool := match patterns with [] => true | _ => false end.
  Definition pm_str (patterns : list str) : str := concat_str patterns (lit ";").
  (** 36-38 *)
  Definition is_pattern (s : str) : bool := match find_first_of s (lit "*?") 0 with Some _ => true | None => false end.
End Patterns.

(** ** system_tools.cpp 73-83 *)
Definition underscore : ascii := "_"%char.
Fixpoint skip_underscores (fuel : nat) (id : str) (pos : nat) : nat :=
  match fuel with
  | O => pos
  | S f => match nth_error id pos with Some c => if Ascii.eqb c underscore then skip_underscores f id (pos + 1) else pos | None => pos end
  end.
Fixpoint back_underscores (id : str) (end_pos : nat) : nat :=
  match end_pos with
  | O => O
  | S e => match nth_error id e with Some c => if Ascii.eqb c underscore then back_underscores id e else end_pos | None => end_pos end
  end.
Definition tidy_identifier (id : str) : outcome str :=
  let pos := match find_last_of id (lit ".:") with Some p => p + 1 | None => 0 end in
  let pos := skip_underscores (length id) id pos in
  let end_pos := back_underscores id (length id) in
  (* end_pos - pos is unsigned: below zero it is larger than any string *)
  substr id pos (if pos <=? end_pos then Some (end_pos - pos) else None).

(** 85-105, with abi::__cxa_demangle as a parameter; [None] is a null pointer, from which no std::string can be made *)
Definition tidy_type_name (demangle : str -> option str) (name0 : str) : outcome str :=
  match demangle (c_str name0) with
  | None => UB
  | Some name =>
      let endpos := find_first_of name (lit "<") 0 in
      let pos := find_last_of (match endpos with Some e => firstn (e + 1) name | None => name end) (lit ": ") in
      match pos with
      | Some p => match endpos with Some e => substr name (p + 1) (Some (e - p - 1)) | None => substr name (p + 1) None end
      | None => Ok name
      end
  end.
