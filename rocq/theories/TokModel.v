(** Model of char_stream (/repo/xo/serialization/char_stream.h and .cpp). *)
From Coq Require Import Ascii String List Arith Bool.
From Verif Require Import Base Str StrModel TokSpec.
Import ListNotations.

(** char_stream.h 74-86: the text from cur_pos to buffer_end, and the two flags.  cur_pos_end is only live inside
    an operation.  The character at buffer_end is the terminating NUL of the C string. *)
Record cs := CS { cs_rest : str; cs_fail : bool; cs_eof : bool }.

(** char_stream.cpp 11-26, 153-160 *)
Definition cs_of_string (text : str) : cs := CS text false false.
Definition cs_of_cstr (text : str) : cs := CS (c_str text) false false.

(** char_stream.cpp 28-33: std::sort by decreasing length; the order among operators of the same length, which
    std::sort leaves open, is that of an insertion sort *)
Fixpoint insert_op (op : str) (l : list str) : list str :=
  match l with
  | [] => [op]
  | o :: t => if length o <? length op then op :: l else o :: insert_op op t
  end.
Definition set_operators (ops : list str) : list str := fold_right insert_op [] ops.
Definition make_cfg (ops : list str) (delims quotes : str) : lexcfg := LexCfg (set_operators ops) delims quotes.

(** char_stream.h 61 *)
Definition good (s : cs) : bool := negb (cs_fail s || cs_eof s).
(** char_stream.h 71 *)
Definition test_eof (s : cs) : cs * bool :=
  match cs_rest s with [] => (CS [] (cs_fail s) true, true) | _ => (s, false) end.

(** strchr( set.c_str(), c ) != 0: the terminating NUL is found too *)
Definition is_delim (c : lexcfg) (x : ascii) : bool := strchr (c_str (lex_delims c)) x.
Definition is_quote (c : lexcfg) (x : ascii) : bool := strchr (c_str (lex_quotes c)) x.

(** char_stream.h 70 *)
Fixpoint skip_delims (c : lexcfg) (text : str) : str :=
  match text with x :: t => if is_delim c x then skip_delims c t else text | [] => [] end.
Definition skip_delimiters (c : lexcfg) (s : cs) : cs :=
  fst (test_eof (CS (skip_delims c (cs_rest s)) (cs_fail s) (cs_eof s))).

(** strncmp( a, b, n ) == 0 for NUL-terminated [a] and [b] (the terminator is not part of the list) *)
Fixpoint strncmp_eq (a b : str) (n : nat) : bool :=
  match n with
  | O => true
  | S m =>
    let x := hd nul a in let y := hd nul b in
    if negb (Ascii.eqb x y) then false
    else if Ascii.eqb x nul then true
    else strncmp_eq (tl a) (tl b) m
  end.

(** char_stream.cpp 182-190 *)
Definition check_operator (c : lexcfg) (text : str) : option str :=
  List.find (fun op => strncmp_eq op text (length op)) (lex_ops c).

(** moving cur_pos forward by [n]; past the end of the buffer every later access is undefined *)
Definition advance (n : nat) (text : str) : outcome str :=
  if n <=? length text then Ok (skipn n text) else UB.

(** char_stream.h 53-54 *)
Definition getc (s : cs) : ascii * cs :=
  match cs_rest s with [] => (nul, CS [] (cs_fail s) true) | x :: t => (x, CS t (cs_fail s) (cs_eof s)) end.
Definition peekc (s : cs) : ascii * cs :=
  match cs_rest s with [] => (nul, CS [] (cs_fail s) true) | x :: _ => (x, s) end.

(** char_stream.cpp 80-95: the loop inside a quotation; [text] starts at cur_pos, [s] is the token so far.  Result:
    token, text after the quotation, and whether the end of the buffer was flagged.  In the last case of the code
    the character comes from getc, which gives NUL at the end of the buffer.  Out of fuel is UB. *)
Fixpoint quote_loop (fuel : nat) (q : ascii) (text s : str) : outcome (str * str * bool) :=
  match fuel with
  | O => UB
  | S f =>
    match text with
    | [] => Ok (s ++ [nul], [], true)
    | x :: t =>
      if Ascii.eqb x q then Ok (s, t, false)
      else if Ascii.eqb x bslash then
        do r <- decode_char text;
        do text' <- advance (snd r) text;
        quote_loop f q text' (s ++ [fst r])
      else quote_loop f q t (s ++ [x])
    end
  end.

(** char_stream.cpp 66-114: [run] is the text between cur_pos and cur_pos_end, [text] starts at cur_pos_end, [s]
    is the token so far.  Result: token, text from cur_pos, end of buffer flagged. *)
Fixpoint token_loop (fuel : nat) (c : lexcfg) (run text s : str) : outcome (str * str * bool) :=
  match fuel with
  | O => UB
  | S f =>
    match text with
    | [] => Ok (s ++ run, [], false)
    | x :: t =>
      if is_delim c x then Ok (s ++ run, text, false)
      else if is_quote c x then
        do r <- quote_loop (S (length t)) x t s;
        let '(s', text', flagged) := r in
        if flagged then Ok (s', text', true) else token_loop f c [] text' s'
      else match check_operator c text with
      | Some op =>
        match run, s with
        | [], [] => do text' <- advance (length op) text; Ok (op, text', false)
        | _, _ => Ok (s ++ run, text, false)
        end
      | None => token_loop f c (run ++ [x]) t s
      end
    end
  end.

(** char_stream.cpp 61-117 *)
Definition get_token (c : lexcfg) (s0 : cs) : outcome (str * cs) :=
  let s := skip_delimiters c s0 in
  if good s then
    do r <- token_loop (S (length (cs_rest s))) c [] (cs_rest s) [];
    let '(t, text, flagged) := r in
    Ok (t, fst (test_eof (CS text (cs_fail s) flagged)))
  else Ok ([], fst (test_eof s)).

(** char_stream.cpp 45-59: strcspn stops at a NUL too *)
Fixpoint cspn (set text : str) : nat :=
  match text with x :: t => if strchr set x then 0 else S (cspn set t) | [] => 0 end.
Definition get_line (s : cs) : str * cs :=
  match cs_rest s with
  | [] => ([], CS [] (cs_fail s) true)
  | text => let n := cspn [cr; lf] text in (firstn n text, CS (skipn n text) (cs_fail s) (cs_eof s))
  end.

(** char_stream.cpp 127-140: strstr searches up to the first NUL of the text *)
Definition seek (sub : str) (s : cs) : bool * cs :=
  match (if good s then Str.find (c_str (cs_rest s)) (c_str sub) 0 else None) with
  | Some i => (true, CS (skipn i (cs_rest s)) (cs_fail s) (cs_eof s))
  | None => (false, CS (cs_rest s) true (cs_eof s))
  end.

(** char_stream.cpp 142-151 *)
Definition seek_past (sub : str) (s : cs) : outcome (bool * cs) :=
  let (found, s') := seek sub s in
  if found then
    do text <- advance (length sub) (cs_rest s');
    Ok (true, fst (test_eof (CS text (cs_fail s') (cs_eof s'))))
  else Ok (false, s').

(** char_stream.cpp 162-170 *)
Definition try_get (sub : str) (s : cs) : outcome (bool * cs) :=
  if strncmp_eq (cs_rest s) sub (length sub) then
    do text <- advance (length sub) (cs_rest s); Ok (true, CS text (cs_fail s) (cs_eof s))
  else Ok (false, s).

(** char_stream.cpp 172-180 *)
Definition try_get_char (x : ascii) (s : cs) : outcome (bool * cs) :=
  if Ascii.eqb (hd nul (cs_rest s)) x then
    do text <- advance 1 (cs_rest s); Ok (true, CS text (cs_fail s) (cs_eof s))
  else Ok (false, s).

(** char_stream.cpp 119-125, for a stream over [buffer] *)
Definition line_number (buffer : str) (s : cs) : nat :=
  1 + count_occ ascii_dec (firstn (length buffer - length (cs_rest s)) buffer) lf.

(** one operation of a history, discarding its result *)
Definition lex_step (c : lexcfg) (s : cs) (o : lex_op) : outcome cs :=
  match o with
  | LToken => omap snd (get_token c s)
  | LLine => Ok (snd (get_line s))
  | LGetc => Ok (snd (getc s))
  | LPeekc => Ok (snd (peekc s))
  | LSeek x => Ok (snd (seek x s))
  | LSeekPast x => omap snd (seek_past x s)
  | LTryGet x => omap snd (try_get x s)
  | LTryGetChar x => omap snd (try_get_char x s)
  end.
Fixpoint run_lex (c : lexcfg) (s : cs) (h : list lex_op) : outcome cs :=
  match h with
  | [] => Ok s
  | o :: t => do s' <- lex_step c s o; run_lex c s' t
  end.
