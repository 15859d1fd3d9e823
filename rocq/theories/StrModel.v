(** Model of /repo/xo/string/string_tools.cpp (search, trimming, splitting, replacing). *)
From Coq Require Import Ascii String List Arith Bool ZArith.
From Verif Require Import Base Str.
Import ListNotations.

(** xo_types.h / string_tools.h 55: default trim characters *)
Definition whitespace : str := [" "%char; tab; cr; lf; ff; vt].

(** string_tools.cpp 29-34; int arithmetic taken as unbounded (size below 2^31) *)
Definition left_str (s : str) (n : Z) : outcome str :=
  if (0 <=? n)%Z then substr s 0 (Some (Z.to_nat n))
  else substr s 0 (Some (Z.to_nat (Z.max 0 (Z.of_nat (length s) + n)))).

(** string_tools.cpp 36-39 *)
Definition mid_str (s : str) (pos : nat) (n : option nat) : outcome str := substr s pos n.

(** string_tools.cpp 41-46: size() - n wraps around to a huge position when n > size *)
Definition right_str (s : str) (n : Z) : outcome str :=
  if (0 <=? n)%Z then
    if (n <=? Z.of_nat (length s))%Z then substr s (length s - Z.to_nat n) None else Throw
  else substr s (Z.to_nat (- n)) None.

(** string_tools.cpp 48-51 *)
Definition in_str (s sub : str) (p : nat) : option nat := find s sub p.

(** string_tools.cpp 53-59 *)
Fixpoint find_nth_loop (s sub : str) (n : nat) (idx : option nat) : option nat :=
  match n, idx with
  | S m, Some i => find_nth_loop s sub m (find s sub (if 0 <? i then i + 1 else i))
  | _, _ => idx
  end.
Definition find_nth_str (s sub : str) (n : nat) : option nat := find_nth_loop s sub n (Some 0).

(** string_tools.cpp 61-95 *)
Definition str_begins_with (s sub : str) : bool := compare_eq s 0 (length sub) sub.
Definition str_begins_with_at (s sub : str) (pos : nat) : bool := (pos <? length s) && compare_eq s pos (length sub) sub.
Definition str_begins_with_char (s : str) (c : ascii) : bool := match s with [] => false | x :: _ => Ascii.eqb x c end.
Definition str_ends_with (s sub : str) : bool :=
  (length sub <=? length s) && compare_eq s (length s - length sub) (length sub) sub.
Definition str_ends_with_char (s : str) (c : ascii) : bool := match rev s with [] => false | x :: _ => Ascii.eqb x c end.
Definition str_contains (s sub : str) : bool := match find s sub 0 with Some _ => true | None => false end.
Definition str_contains_char (s : str) (c : ascii) : bool := match find_first_of s [c] 0 with Some _ => true | None => false end.

(** string_tools.cpp 97-103 *)
Definition trim_str (s chars : str) : outcome str :=
  match find_first_not_of s chars 0 with
  | None => Ok []
  | Some l =>
    match find_last_not_of s chars with
    | None => substr s l (Some (0 - l))
    | Some r => substr s l (Some (1 + r - l))
    end
  end.

(** string_tools.cpp 105-109 *)
Definition trim_left_str (s chars : str) : outcome str :=
  match find_first_not_of s chars 0 with Some l => substr s l None | None => Ok [] end.

(** string_tools.cpp 111-115: 1 + npos wraps to 0 *)
Definition trim_right_str (s chars : str) : outcome str :=
  match find_last_not_of s chars with Some r => substr s 0 (Some (1 + r)) | None => substr s 0 (Some 0) end.

(** string_tools.cpp 117-127 (and 129-139); [fuel] bounds the iterations, size + 1 suffice.
    find_first_not_of( ..., npos ) is npos. *)
Fixpoint split_loop (fuel : nat) (s seps : str) (ofs : option nat) (acc : list str) : outcome (list str) :=
  match ofs with
  | None => Ok acc
  | Some o =>
    match fuel with
    | O => UB
    | S f =>
      match find_first_of s seps o with
      | Some e => do p <- substr s o (Some (e - o)); split_loop f s seps (find_first_not_of s seps e) (acc ++ [p])
      | None => do p <- substr s o None; split_loop f s seps None (acc ++ [p])
      end
    end
  end.
Definition split_str (s seps : str) : outcome (list str) :=
  split_loop (S (length s)) s (c_str seps) (find_first_not_of s (c_str seps) 0) [].

(** string_tools.cpp 141-153 *)
Definition split_str_at_first (s seps : str) : outcome (str * str) :=
  match find_first_of s (c_str seps) 0 with
  | Some pos => do a <- substr s 0 (Some pos); do b <- substr s (pos + 1) None; Ok (a, b)
  | None => Ok (s, [])
  end.
Definition split_str_at_last (s seps : str) : outcome (str * str) :=
  match find_last_of s (c_str seps) with
  | Some pos => do a <- substr s 0 (Some pos); do b <- substr s (pos + 1) None; Ok (a, b)
  | None => Ok (s, [])
  end.

(** string_tools.cpp 155-160; each round leaves less text after the search position, so size + 1 rounds suffice *)
Fixpoint replace_loop (fuel : nat) (s f w : str) (pos : option nat) : outcome str :=
  match pos with
  | None => Ok s
  | Some p =>
    match fuel with
    | O => UB
    | S fl => let s' := replace_at s p (length f) w in replace_loop fl s' f w (find s' f (p + length w))
    end
  end.
Definition replace_str (s f w : str) : outcome str :=
  match f with
  | [] => Throw
  | _ => replace_loop (S (length s)) s f w (find s f 0)
  end.

(** string_tools.cpp 173-178 *)
Definition replace_char (s : str) (f w : ascii) : str := map (fun c => if Ascii.eqb c f then w else c) s.

(** string_tools.cpp 225-231 *)
Definition make_key_value_str (s sep : str) : outcome (str * str) :=
  match find_first_of s (c_str sep) 0 with
  | None => Ok (s, [])
  | Some pos =>
    do a <- substr s 0 (Some pos); do a' <- trim_str a whitespace;
    do b <- mid_str s (pos + 1) None; do b' <- trim_str b whitespace;
    Ok (a', b')
  end.

(** string_tools.cpp 233-246, string_tools.h 145-155 *)
Fixpoint concat_loop (l : list str) (delim : str) (first : bool) (acc : str) : str :=
  match l with
  | [] => acc
  | [] :: t => concat_loop t delim first acc
  | e :: t => concat_loop t delim false ((if first then acc else acc ++ delim) ++ e)
  end.
Definition concat_str (l : list str) (delim : str) : str := concat_loop l delim true [].

(** string_tools.cpp 248-255 *)
Definition concat_str2 (s1 s2 : str) (delim : ascii) : str :=
  match s1, s2 with [], _ => s2 | _, [] => s1 | _, _ => s1 ++ delim :: s2 end.

(** string_tools.cpp 398-403 *)
Definition append_str (s a delim : str) : str :=
  (match s with [] => s | _ => if str_ends_with s delim then s else s ++ delim end) ++ a.

(** string_tools.cpp 405-435 *)
Definition slashes : str := ["/"%char; bslash].
Definition get_filename_ext (s : str) : outcome str :=
  match find_last_of s (lit ".") with
  | Some n => do ext <- substr s (n + 1) None; Ok (match find_last_of ext slashes with None => ext | Some _ => [] end)
  | None => Ok []
  end.
Definition get_filename_without_ext (s : str) : outcome str :=
  do e <- get_filename_ext s;
  substr s 0 (Some (length s - (if 0 <? length e then length e + 1 else 0))).
Definition get_filename_folder (s : str) : outcome str :=
  match find_last_of s slashes with Some n => substr s 0 (Some (n + 1)) | None => Ok s end.
Definition get_filename_without_folder (s : str) : outcome str :=
  match find_last_of s slashes with Some n => substr s (n + 1) None | None => Ok s end.

(** printf "%0<k>o" of the value [n]: at least [k] octal digits *)
Definition digit (n : N) : ascii := ascii_of_N (48 + n).
Fixpoint octal (k : nat) (n : N) : str :=
  match k with
  | O => []
  | S k' => octal k' (n / 8) ++ [digit (n mod 8)]
  end.

(** string_tools.cpp 288-305: (int)c of a negative char is printed as a 32-bit pattern, 11 octal digits *)
Definition encode_char (c : ascii) : str :=
  if Ascii.eqb c dquote then [bslash; dquote]
  else if Ascii.eqb c bslash then [bslash; bslash]
  else if (char_z c <? 32)%Z then
    if Ascii.eqb c cr then [bslash; "r"%char]
    else if Ascii.eqb c lf then [bslash; "n"%char]
    else if Ascii.eqb c tab then [bslash; "t"%char]
    else if (char_z c <? 0)%Z then bslash :: octal 11 (Z.to_N (char_z c + 4294967296))
    else bslash :: octal 3 (N_of_ascii c)
  else [c].

(** string_tools.cpp 325-333: octal digits, at most [n] of them; result is (value, digits read) *)
Fixpoint read_octal (n : nat) (buf : str) (value : N) (read : nat) : N * nat :=
  match n, buf with
  | S m, c :: t =>
    if (48 <=? N_of_ascii c)%N && (N_of_ascii c <? 56)%N
    then read_octal m t (value * 8 + (N_of_ascii c - 48)) (S read)
    else (value, read)
  | _, _ => (value, read)
  end.

(** string_tools.cpp 307-339; [buf] is the rest of the buffer, buf_size its length.
    Returns the character and *len. *)
Definition decode_char (buf : str) : outcome (ascii * nat) :=
  match buf with
  | [] => Throw
  | c :: rest =>
    if negb (Ascii.eqb c bslash) then Ok (c, 0)
    else match rest with
    | [] => Ok (c, 0)
    | e :: _ =>
      if Ascii.eqb e nul then Ok ("?"%char, 2)
      else if Ascii.eqb e bslash then Ok (bslash, 2)
      else if Ascii.eqb e dquote then Ok (dquote, 2)
      else if Ascii.eqb e "r"%char then Ok (cr, 2)
      else if Ascii.eqb e "n"%char then Ok (lf, 2)
      else if Ascii.eqb e "t"%char then Ok (tab, 2)
      else
        let (value, read) := read_octal (Nat.min (length rest) 3) rest 0 0 in
        if (0 <? read) && (0 <? value)%N && (value <? 32)%N then Ok (ascii_of_N value, 1 + read)
        else Ok ("?"%char, 1 + read)
    end
  end.

(** string_tools.cpp 341-352 *)
Definition quoted (s : str) : str := dquote :: flat_map (fun c =>
  if Ascii.eqb c dquote || Ascii.eqb c bslash || (char_z c <? 32)%Z then encode_char c else [c]) s ++ [dquote].

(** string_tools.cpp 354-360; strchr also finds the terminating NUL *)
Definition strchr (special : str) (c : ascii) : bool := in_set special c || Ascii.eqb c nul.
Definition needs_quotes (s special : str) : bool :=
  existsb (fun c => (char_z c <? 33)%Z || Ascii.eqb c dquote || strchr special c) s
  || match s with [] => true | _ => false end.

(** string_tools.cpp 362-367 *)
Definition try_quoted (s special : str) : str := if needs_quotes s special then quoted s else s.

(** string_tools.cpp 374-385; [rest] starts at [it]; dereferencing the end is undefined.
    A zero *len (backslash as last character) moves [it] back by one and forward again: the loop never ends,
    modelled like the other runaway as UB; it cannot happen when the last character is a double quote. *)
Fixpoint unquote_loop (fuel : nat) (rest out : str) : outcome str :=
  match fuel with
  | O => UB
  | S f =>
    match rest with
    | [] => UB
    | c :: t =>
      if Ascii.eqb c dquote then Ok out
      else if Ascii.eqb c bslash then
        do r <- decode_char rest;
        match snd r with
        | O => UB
        | S _ => unquote_loop f (skipn (snd r) rest) (out ++ [fst r])
        end
      else unquote_loop f t (out ++ [c])
    end
  end.

(** string_tools.cpp 369-386 *)
Definition try_unquoted (s : str) : outcome str :=
  match s with
  | [] => Ok s
  | c :: t =>
    if negb (Ascii.eqb c dquote) || negb (Ascii.eqb (List.last s nul) dquote) then Ok s
    else unquote_loop (length s) t []
  end.
