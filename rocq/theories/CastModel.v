(** Models of integer/bool conversion (/repo/xo/string/string_cast.cpp), version (/repo/xo/system/version.h)
    and arg_parser (/repo/xo/utility/arg_parser.h). *)
From Coq Require Import Ascii String List Arith Bool NArith ZArith.
From Verif Require Import Base Str StrModel CastSpec.
Import ListNotations.
Local Open Scope Z_scope.

(** std::to_string: decimal digits, no leading zeros, minus sign for negative numbers *)
Fixpoint dec_digits (fuel : nat) (n : N) : str :=
  match fuel with
  | O => [digit (n mod 10)]
  | S f => if (n <? 10)%N then [digit n] else dec_digits f (n / 10) ++ [digit (n mod 10)]
  end.
Definition to_string (z : Z) : str :=
  let ds := dec_digits (N.size_nat (Z.abs_N z)) (Z.abs_N z) in
  if z <? 0 then "-"%char :: ds else ds.

(** isspace in the C locale *)
Definition isspace (c : ascii) : bool := in_set [" "%char; tab; lf; vt; ff; cr] c.
Definition isdigit (c : ascii) : bool := (48 <=? N_of_ascii c)%N && (N_of_ascii c <=? 57)%N.

Fixpoint skip_space (s : str) : str :=
  match s with c :: t => if isspace c then skip_space t else s | [] => [] end.
Fixpoint take_digits (s : str) (acc : N) (count : nat) : N * nat :=
  match s with
  | c :: t => if isdigit c then take_digits t (acc * 10 + (N_of_ascii c - 48)) (S count) else (acc, count)
  | [] => (acc, count)
  end.
(** the part strtol, strtoul, strtoll and strtoull share (base 10): blanks, optional sign, digits;
    [None] when there is no digit, in which case *endptr is the start of the text *)
Definition scan_sign (s : str) : bool * str :=
  match s with
  | c :: t => if Ascii.eqb c "-" then (true, t) else if Ascii.eqb c "+" then (false, t) else (false, s)
  | [] => (false, [])
  end.
Definition scan_int (s : str) : option (bool * N) :=
  let (neg, ds) := scan_sign (skip_space s) in
  let (v, n) := take_digits ds 0 0 in
  if (n =? 0)%nat then None else Some (neg, v).

(** strtol / strtoll: saturating *)
Definition strtol (r : bool * N) : Z :=
  let z := if fst r then - Z.of_N (snd r) else Z.of_N (snd r) in
  if z <? - 2 ^ 63 then - 2 ^ 63 else if 2 ^ 63 - 1 <? z then 2 ^ 63 - 1 else z.
(** strtoul / strtoull: saturating magnitude, negated modulo 2^64 *)
Definition strtoul (r : bool * N) : Z :=
  if 2 ^ 64 - 1 <? Z.of_N (snd r) then 2 ^ 64 - 1
  else if fst r then (- Z.of_N (snd r)) mod 2 ^ 64 else Z.of_N (snd r).

(** conversion of a long to int *)
Definition wrap32 (z : Z) : Z := (z + 2 ^ 31) mod 2 ^ 32 - 2 ^ 31.

(** string_cast.cpp 33-73; long is 64 bits.  On failure the strto... result 0 has been assigned. *)
Definition from_str_int (k : int_kind) (s : str) : Z * bool :=
  match scan_int (c_str s) with
  | None => (0, false)
  | Some r =>
    (match k with
     | KInt => wrap32 (strtol r)
     | KUInt => (strtoul r) mod 2 ^ 32
     | KLong | KLLong => strtol r
     | KULong | KULLong => strtoul r
     end, true)
  end.
(** string_cast.cpp 94-122 *)
Definition to_str_int (k : int_kind) (z : Z) : str := to_string z.

(** string_cast.cpp 24-31, 89-92; [v] is the variable's old value *)
Definition equals_any (s : str) (l : list string) : bool := existsb (fun x => str_eqb s (lit x)) l.
Definition from_str_bool (s : str) (v : bool) : bool * bool :=
  if equals_any s ["1"; "true"; "yes"]%string then (true, true)
  else if equals_any s ["0"; "false"; "no"]%string then (false, true)
  else (v, false).
Definition to_str_bool (b : bool) : str := if b then lit "1" else lit "0".

(** version.h 25-47 *)
Definition version_compare (a b : ver) : Z :=
  if v_major a <? v_major b then -1
  else if v_major b <? v_major a then 1
  else if v_minor a <? v_minor b then -2
  else if v_minor b <? v_minor a then 2
  else if v_patch a <? v_patch b then -3
  else if v_patch b <? v_patch a then 3
  else if (0 <? v_build a) && (0 <? v_build b) then
    if v_build a <? v_build b then -4
    else if v_build b <? v_build a then 4
    else 0
  else 0.
(** version.h 49-61 *)
Definition ver_lt a b := version_compare a b <? 0.
Definition ver_gt a b := 0 <? version_compare a b.
Definition ver_le a b := version_compare a b <=? 0.
Definition ver_ge a b := 0 <=? version_compare a b.
Definition ver_eq a b := version_compare a b =? 0.
Definition ver_ne a b := negb (version_compare a b =? 0).
Definition is_at_least (v : ver) maj min patch bld := ver_ge v (Ver maj min patch bld []).
Definition is_below (v : ver) maj min patch bld := ver_lt v (Ver maj min patch bld []).

(** string_cast.cpp 147-153 *)
Definition to_str_version (v : ver) : str :=
  to_string (v_major v) ++ "."%char :: to_string (v_minor v) ++ "."%char :: to_string (v_patch v)
  ++ (if 0 <? v_build v then "."%char :: to_string (v_build v) else []) ++ v_postfix v.
(** string_cast.cpp 129-145; [v] is the variable's old value; fields are assigned one after the other *)
Definition from_str_version (s : str) (v : ver) : outcome (ver * bool) :=
  do p <- split_str_at_first s whitespace;
  do vs <- split_str (fst p) (lit ".");
  Ok (match vs with
  | a :: b :: c :: rest =>
    let '(ma, oka) := from_str_int KInt a in
    let v1 := Ver ma (v_minor v) (v_patch v) (v_build v) (v_postfix v) in
    if oka then
      let '(mi, okb) := from_str_int KInt b in
      let v2 := Ver ma mi (v_patch v) (v_build v) (v_postfix v) in
      if okb then
        let '(pa, okc) := from_str_int KInt c in
        let v3 := Ver ma mi pa (v_build v) (v_postfix v) in
        if okc then
          let bl := match rest with d :: _ => fst (from_str_int KInt d) | [] => v_build v end in
          (Ver ma mi pa bl (snd p), true)
        else (v3, false)
      else (v2, false)
    else (v1, false)
  | _ => (v, false)
  end).

(** arg_parser.h 13-16: argv[1..] *)
Definition ap_args (argv : list str) : list str := tl argv.
(** arg_parser.h 61-67 *)
Fixpoint count_dashes (a : str) : nat :=
  match a with c :: t => if Ascii.eqb c dash then S (count_dashes t) else O | [] => O end.
(** arg_parser.h 18-25 *)
Fixpoint find_flag_from (args : list str) (f : str) (idx : nat) : option nat :=
  match args with
  | [] => None
  | a :: t =>
    let d := count_dashes a in
    if (0 <? d)%nat && str_eqb (skipn d a) f then Some idx else find_flag_from t f (S idx)
  end.
Definition find_flag (args : list str) (f : str) : option nat := find_flag_from args f 0.
(** arg_parser.h 27-29 *)
Definition has_flag (args : list str) (f : str) : bool := match find_flag args f with Some _ => true | None => false end.
(** arg_parser.h 58-60 *)
Definition is_flag (a : str) : bool := (0 <? count_dashes a)%nat.

Section Get.
  Context {T : Type} (from_str : str -> T -> T * bool).

  (** arg_parser.h 31-36; the result of from_str is not looked at *)
  Definition ap_get_flag (args : list str) (f : str) (def : T) : outcome T :=
    match find_flag args f with
    | Some idx =>
      if (idx <? length args - 1)%nat then
        do a <- vec_get args (idx + 1);
        if str_begins_with_char a dash then Ok def else Ok (fst (from_str a def))
      else Ok def
    | None => Ok def
    end.

  (** arg_parser.h 38-46 *)
  Fixpoint ap_get_from (args : list str) (idx : nat) (def : T) : T :=
    match args with
    | [] => def
    | a :: t =>
      if is_flag a then def
      else match idx with
      | O => fst (from_str a def)
      | S j => ap_get_from t j def
      end
    end.
  Definition ap_get_index (args : list str) (idx : nat) (def : T) : T := ap_get_from args idx def.
End Get.
