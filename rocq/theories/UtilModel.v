(** Models of hash.h, smart_enum.h, optional.h, result.h, side.h and irange.h in /repo/xo/utility, date.h in /repo/xo/time and stop_token.h in /repo/xo/thread. *)
From Coq Require Import Ascii String List Arith Bool NArith ZArith.
From Verif Require Import Base Str StrModel CastSpec CastModel UtilSpec.
Import ListNotations.

(** ** hash.h.  A char is signed and is widened to 64 bits by sign extension. *)
Definition char_u64 (c : ascii) : N := Z.to_N (char_z c mod 2 ^ 64).
Definition u64_mul (a b : N) : N := ((a * b) mod 2 ^ 64)%N.
(** lines 18-19; a C string is followed by a NUL *)
Fixpoint hash_constexpr (s : str) (last : N) : N :=
  match s with
  | [] => last
  | c :: r => if Ascii.eqb c nul then last else hash_constexpr r (u64_mul (N.lxor (char_u64 c) last) 0x100000001B3)
  end.
(** lines 21-25 *)
Fixpoint hash_loop (s : str) (ret : N) : N :=
  match s with
  | [] => ret
  | c :: r => if Ascii.eqb c nul then ret else let ret := N.lxor ret (char_u64 c) in let ret := u64_mul ret 0x100000001B3 in hash_loop r ret
  end.
Definition hash_cstr (s : str) : N := hash_loop s 0xCBF29CE484222325.
(** line 27 *)
Definition hash_string (s : str) : N := hash_cstr (c_str s).
(** line 30 *)
Definition hash_literal (s : str) : N := hash_constexpr s 0xCBF29CE484222325.

(** ** smart_enum.h *)
(** strcspn and strspn of a C string *)
Fixpoint strcspn (s set : str) : nat := match s with [] => 0 | c :: r => if in_set set c then 0 else S (strcspn r set) end.
Fixpoint strspn (s set : str) : nat := match s with [] => 0 | c :: r => if in_set set c then S (strspn r set) else 0 end.
(** strncmp( a, b, n ) == 0 *)
Fixpoint strncmp_eq (a b : str) (n : nat) {struct n} : bool :=
  match n with
  | 0 => true
  | S n => match a, b with [], [] => true | x :: a, y :: b => Ascii.eqb x y && strncmp_eq a b n | _, _ => false end
  end.
Definition sep_chars : str := [" "%char; ","%char; tab; lf; cr].
(** lines 10-20 from_str; [text] is the C string va_args; gives E( i ) *)
Fixpoint enum_from_loop (fuel : nat) (s text : str) (i : nat) : outcome (option nat) :=
  match fuel with
  | 0 => UB
  | S fuel =>
    match text with
    | [] => Ok None
    | _ =>
      let enum_len := strcspn text sep_chars in
      if (length s =? enum_len) && strncmp_eq (c_str s) text enum_len then Ok (Some i)
      else let sep_len := strspn (skipn enum_len text) sep_chars in enum_from_loop fuel s (skipn (enum_len + sep_len) text) (S i)
    end
  end.
Definition enum_from_str (s text : str) : outcome (option nat) := enum_from_loop (S (length text)) s text 0.
(** lines 21-27 to_str *)
Fixpoint enum_to_loop (n : nat) (text : str) {struct n} : str :=
  match n, text with
  | S n, _ :: _ => let t := skipn (strcspn text sep_chars) text in enum_to_loop n (skipn (strspn t sep_chars) t)
  | _, _ => text
  end.
Definition enum_to_str (e : Z) (text : str) : str := let t := enum_to_loop (Z.to_nat e) text in firstn (strcspn t sep_chars) t.

(** ** date.h *)
(** %0<width>d *)
Definition pad_int (width : nat) (z : Z) : str :=
  let digits := to_string (Z.abs z) in
  if (z <? 0)%Z then "-"%char :: repeat "0"%char (width - 1 - length digits) ++ digits else repeat "0"%char (width - length digits) ++ digits.
(** lines 15-18 *)
Definition date_to_str (d : date) : str := pad_int 4 (d_year d) ++ "-"%char :: pad_int 2 (d_month d) ++ "-"%char :: pad_int 2 (d_day d).
(** lines 20-31; all three parts are converted, whether or not an earlier one failed *)
Definition date_from_str (s : str) (v : date) : outcome (date * bool) :=
  do sv <- split_str s (lit "-./");
  Ok (match sv with
  | [a; b; c] =>
    let '(y, ok1) := from_str_int KInt a in let '(m, ok2) := from_str_int KInt b in let '(d, ok3) := from_str_int KInt c in
    (Date y m d, ok1 && ok2 && ok3)
  | _ => (v, false)
  end).

(** ** optional.h *)
Section Compact.
  (** lines 13-29 with the sentinel, 32-48 with NaN: [blank] tells the values that stand for no value *)
  Context {T : Type} (none : T) (blank : T -> bool) (eqb : T -> T -> bool).
  Definition copt_step (o : T) (op : opt_op T) : T := match op with OAssign v => v | OReset => none | OWrite v => v end.
  Definition copt_run (ops : list (opt_op T)) : T := fold_left copt_step ops none.
  Definition copt_has (o : T) : bool := negb (blank o).
  Definition copt_value (o : T) : outcome T := if copt_has o then Ok o else Throw.
  Definition copt_value_or (o d : T) : T := if copt_has o then o else d.
  (** lines 72-76 *)
  Definition copt_eq_value (o v : T) : bool := copt_has o && eqb o v.
  Definition copt_ne_value (o v : T) : bool := negb (copt_eq_value o v).
  Definition copt_eq (a b : T) : bool := (copt_has a && copt_has b && eqb b a) || (negb (copt_has a) && negb (copt_has b)).
End Compact.
Section Flagged.
  (** lines 51-70 *)
  Context {T : Type} (dflt : T) (eqb : T -> T -> bool).
  Record fopt := Fopt { f_value : T; f_has : bool }.
  Definition fopt_init : fopt := Fopt dflt false.
  Definition fopt_step (o : fopt) (op : opt_op T) : fopt := match op with OAssign v => Fopt v true | OReset => Fopt dflt false | OWrite v => Fopt v (f_has o) end.
  Definition fopt_run (ops : list (opt_op T)) : fopt := fold_left fopt_step ops fopt_init.
  Definition fopt_value (o : fopt) : outcome T := if f_has o then Ok (f_value o) else Throw.
  Definition fopt_value_or (o : fopt) (d : T) : T := if f_has o then f_value o else d.
  Definition fopt_eq_value (o : fopt) (v : T) : bool := f_has o && eqb (f_value o) v.
  Definition fopt_ne_value (o : fopt) (v : T) : bool := negb (fopt_eq_value o v).
  Definition fopt_eq (a b : fopt) : bool := (f_has a && f_has b && eqb (f_value b) (f_value a)) || (negb (f_has a) && negb (f_has b)).
End Flagged.
(** line 77: != of two optionals calls itself with the arguments swapped; None if [fuel] calls do not suffice *)
Fixpoint opt_ne {O : Type} (fuel : nat) (a b : O) : option bool := match fuel with 0 => None | S fuel => opt_ne fuel b a end.
(** constants.h 27-32 *)
Definition sentinel (k : int_kind) : Z := match k with KInt | KLong | KLLong => kind_min k | KUInt | KULong | KULLong => kind_max k end.

(** ** result.h 33-58, with the error messages of 7-31 *)
Section Result.
  Context {T : Type} (dflt : T).
  Record res := Res { r_value : T; r_error : str }.
  Inductive res_op := RValue (v : T) | RError (e : str).
  (** lines 37-38 *)
  Definition res_make (op : res_op) : res := match op with RValue v => Res v [] | RError e => Res dflt e end.
  (** lines 44-45 *)
  Definition res_assign (r : res) (op : res_op) : res := match op with RValue v => Res v [] | RError e => Res (r_value r) e end.
  Definition res_has (r : res) : bool := match r_error r with [] => true | _ => false end.
  Definition res_run (first : res_op) (ops : list res_op) : res := fold_left res_assign ops (res_make first).
End Result.
(** line 22 *)
Definition err_append (e m : str) : str := (match e with [] => e | _ => e ++ [lf] end) ++ m.

(** ** stop_token.h: states are cells of a heap; a source or token holds a pointer or null *)
Record stop_sys := Stop { st_heap : list bool; st_sources : list (option nat); st_tokens : list (option nat) }.
Definition stop_init : stop_sys := Stop [] [] [].
Definition stop_step (s : stop_sys) (op : stop_op) : outcome stop_sys :=
  match op with
  | SNew => Ok (Stop (st_heap s ++ [false]) (st_sources s ++ [Some (length (st_heap s))]) (st_tokens s))
  | SCopy i => do p <- vec_get (st_sources s) i; Ok (Stop (st_heap s) (st_sources s ++ [p]) (st_tokens s))
  | SMove i => do p <- vec_get (st_sources s) i; do l <- vec_set (st_sources s) i None; Ok (Stop (st_heap s) (l ++ [p]) (st_tokens s))
  | SAssign i j => do p <- vec_get (st_sources s) j; do l <- vec_set (st_sources s) i p; Ok (Stop (st_heap s) l (st_tokens s))
  | TNew => Ok (Stop (st_heap s) (st_sources s) (st_tokens s ++ [None]))
  | TGet i => do p <- vec_get (st_sources s) i; Ok (Stop (st_heap s) (st_sources s) (st_tokens s ++ [p]))
  | TCopy i => do p <- vec_get (st_tokens s) i; Ok (Stop (st_heap s) (st_sources s) (st_tokens s ++ [p]))
  | TMove i => do p <- vec_get (st_tokens s) i; do l <- vec_set (st_tokens s) i None; Ok (Stop (st_heap s) (st_sources s) (l ++ [p]))
  | TAssign i j => do p <- vec_get (st_tokens s) j; do l <- vec_set (st_tokens s) i p; Ok (Stop (st_heap s) (st_sources s) l)
  (* line 30; null is dereferenced after a move *)
  | SRequest i => do p <- vec_get (st_sources s) i; match p with Some a => do h <- vec_set (st_heap s) a true; Ok (Stop h (st_sources s) (st_tokens s)) | None => UB end
  end.
(** newest operation first *)
Fixpoint stop_run (h : list stop_op) : outcome stop_sys := match h with [] => Ok stop_init | op :: h => do s <- stop_run h; stop_step s op end.
(** lines 16-17, 33-34 *)
Definition stop_requested (s : stop_sys) (p : option nat) : outcome bool := match p with Some a => vec_get (st_heap s) a | None => Ok false end.
Definition token_requested (s : stop_sys) (i : nat) : outcome bool := do p <- vec_get (st_tokens s) i; stop_requested s p.
Definition source_requested (s : stop_sys) (i : nat) : outcome bool := do p <- vec_get (st_sources s) i; stop_requested s p.
Definition token_possible (s : stop_sys) (i : nat) : outcome bool := do p <- vec_get (st_tokens s) i; Ok (match p with Some _ => true | None => false end).

(** ** side.h *)
(** lines 14-20 *)
Definition mirrored (x : side) : side := match x with Left => Right | Right => Left | _ => NoSide end.
(** lines 22-25 *)
Definition side_postfix (x : side) : str := match x with Left => lit "_l" | NoSide => lit "" | Right => lit "_r" end.
(** lines 27-33 *)
Definition str_get_side (s : str) : side := if str_ends_with s (lit "_l") then Left else if str_ends_with s (lit "_r") then Right else NoSide.
Definition side_eqb (a b : side) : bool := match a, b with Left, Left | NoSide, NoSide | Right, Right => true | _, _ => false end.
(** lines 35-39 *)
Definition str_remove_side (s : str) : outcome str := if negb (side_eqb (str_get_side s) NoSide) then left_str s (-2) else Ok s.
(** s.back() = c *)
Definition set_back (s : str) (c : ascii) : outcome str := match s with [] => UB | _ => vec_set s (length s - 1) c end.
(** lines 41-54 *)
Definition str_set_side (s : str) (x : side) : outcome str :=
  let cur := str_get_side s in
  if side_eqb cur x then Ok s
  else if side_eqb cur NoSide then Ok (s ++ side_postfix x)
  else if side_eqb x NoSide then str_remove_side s
  else set_back s (if side_eqb x Left then "l"%char else "r"%char).
(** lines 56-64 *)
Definition str_mirrored_side (s : str) : outcome str :=
  let cur := str_get_side s in
  if negb (side_eqb cur NoSide) then set_back s (if side_eqb cur Left then "r"%char else "l"%char) else Ok s.
(** lines 66-71 *)
Definition str_mirror_side (s : str) : outcome str :=
  if str_ends_with s (lit "_r") then set_back s "l"%char else if str_ends_with s (lit "_l") then set_back s "r"%char else Ok s.
(** lines 73-76 *)
Definition str_append_before_side (s postfix : str) : outcome str := do b <- str_remove_side s; Ok (b ++ postfix ++ side_postfix (str_get_side s)).

(** ** irange.h: the values a range-for visits; None if it has not ended after [fuel] values.  Integers of a type that does not overflow. *)
Fixpoint irange_loop (fuel : nat) (v e step : Z) : option (list Z) :=
  if (e =? v)%Z then Some [] else match fuel with 0 => None | S fuel => option_map (cons v) (irange_loop fuel (v + step)%Z e step) end.
(** lines 15-48 and 50-81; is_whole holds of integers *)
Definition irange_values (fuel : nat) (b e : Z) : option (list Z) := irange_loop fuel b e 1.
Definition irange_step_values (fuel : nat) (b e s : Z) : option (list Z) := irange_loop fuel b e s.
