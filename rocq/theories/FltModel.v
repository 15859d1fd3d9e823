(** Text of floating-point numbers: /repo/xo/string/string_cast.cpp 10-22 and 75-87 with what the C library does there:
    strtod / strtof (exact decimal and hexadecimal numbers rounded to nearest, ties to even, infinity on overflow; the error number is not
    modelled) and the %g conversion of snprintf (six significant digits of the exact value, rounded to nearest, ties to even).
    One NaN only, written without sign; a NaN's parenthesised text is not looked at, which makes no difference to the result. *)
From Coq Require Import Ascii String List Arith Bool NArith ZArith SpecFloat.
From Verif Require Import Base Str StrModel CastSpec CastModel FltSpec.
Import ListNotations.
Local Open Scope Z_scope.

(** n / d rounded to the nearest integer, ties to even *)
Definition round_div (n d : Z) : Z :=
  let q := n / d in
  match Z.compare (2 * (n mod d)) d with Lt => q | Gt => q + 1 | Eq => if Z.even q then q else q + 1 end.
(** n / d * b ^ -e, as a fraction *)
Definition scale_num (b n e : Z) : Z := n * b ^ Z.max 0 (- e).
Definition scale_den (b d e : Z) : Z := d * b ^ Z.max 0 e.

(** ** strtod, strtof *)
(** the exponent of the highest bit of n / d *)
Definition log2_fraction (n d : Z) : Z :=
  let k := Z.log2 n - Z.log2 d in if scale_num 2 n k <? scale_den 2 d k then k - 1 else k.
(** the number of the format nearest to n / d *)
Definition round_fraction (f : format) (neg : bool) (n d : Z) : spec_float :=
  let e := Z.max (bottom f) (log2_fraction n d - (bits f - 1)) in
  let m := round_div (scale_num 2 n e) (scale_den 2 d e) in
  if m =? 0 then S754_zero neg
  else
    let (m, e) := if m =? 2 ^ bits f then (2 ^ (bits f - 1), e + 1) else (m, e) in
    if top f - bits f <? e then S754_infinity neg else S754_finite neg (Z.to_pos m) e.
(** v * b ^ q *)
Definition round_scaled (f : format) (neg : bool) (v b q : Z) : spec_float :=
  if v =? 0 then S754_zero neg
  else if 0 <=? q then round_fraction f neg (v * b ^ q) 1 else round_fraction f neg v (b ^ (- q)).

Definition digit_of (base : Z) (c : ascii) : option Z :=
  let n := Z.of_N (N_of_ascii c) in
  let v := if (48 <=? n) && (n <=? 57) then n - 48 else if (65 <=? n) && (n <=? 70) then n - 55 else if (97 <=? n) && (n <=? 102) then n - 87 else base in
  if v <? base then Some v else None.
(** the number read, the number of digits, the rest of the text *)
Fixpoint take_base (base : Z) (s : str) (acc : Z) (count : nat) : Z * nat * str :=
  match s with
  | c :: t => match digit_of base c with Some v => take_base base t (acc * base + v) (S count) | None => (acc, count, s) end
  | [] => (acc, count, [])
  end.
(** digits with or without a point: their value without the point, the number of digits behind it, the rest *)
Definition scan_mantissa (base : Z) (s : str) : option (Z * nat * str) :=
  let '(v, n, r) := take_base base s 0 0 in
  let '(v2, n2, r2) := match r with c :: t => if Ascii.eqb c "." then take_base base t v 0 else (v, O, r) | [] => (v, O, r) end in
  if (n + n2 =? 0)%nat then None else Some (v2, n2, r2).
Definition scan_exponent (letters : str) (s : str) : Z :=
  match s with
  | c :: t =>
      if in_set letters c then
        let (neg, t') := scan_sign t in
        let '(v, n, _) := take_base 10 t' 0 0 in
        if (n =? 0)%nat then 0 else if neg then - v else v
      else 0
  | [] => 0
  end.
Definition to_lower (c : ascii) : ascii := let n := N_of_ascii c in if ((65 <=? n) && (n <=? 90))%N then ascii_of_N (n + 32) else c.
Definition starts_word (w s : str) : bool := starts_with (map to_lower s) w.
(** [None] when nothing is converted and *endptr is the start of the text *)
Definition strtod (f : format) (s : str) : option spec_float :=
  let (neg, r) := scan_sign (skip_space s) in
  if starts_word (lit "inf") r then Some (S754_infinity neg)
  else if starts_word (lit "nan") r then Some S754_nan
  else
    match (if starts_word (lit "0x") r then scan_mantissa 16 (skipn 2 r) else None) with
    | Some (v, k, r2) => Some (round_scaled f neg v 2 (scan_exponent (lit "pP") r2 - 4 * Z.of_nat k))
    | None =>
        match scan_mantissa 10 r with
        | Some (v, k, r2) => Some (round_scaled f neg v 10 (scan_exponent (lit "eE") r2 - Z.of_nat k))
        | None => None
        end
    end.
(** string_cast.cpp 10-22; when nothing is converted strtod returns 0, which is assigned *)
Definition from_str_float (f : format) (s : str) : spec_float * bool :=
  match strtod f (c_str s) with Some x => (x, true) | None => (S754_zero false, false) end.

(** ** snprintf %g *)
(** number of decimal digits *)
Fixpoint count_digits (fuel : nat) (z : Z) : Z :=
  match fuel with O => 1 | S f => if z <? 10 then 1 else 1 + count_digits f (z / 10) end.
Definition digits10 (z : Z) : Z := count_digits (Z.to_nat (Z.log2 z)) z.
(** the exponent of the first decimal digit of n / d *)
Definition log10_fraction (n d : Z) : Z := if d <=? n then digits10 (n / d) - 1 else - digits10 ((d - 1) / n).
(** the six digits and the exponent of the first *)
Definition six (n d : Z) : Z * Z :=
  let x := log10_fraction n d in
  let k := round_div (scale_num 10 n (x - 5)) (scale_den 10 d (x - 5)) in
  if k =? 10 ^ 6 then (10 ^ 5, x + 1) else (k, x).
Fixpoint strip_zeros (s : str) : str :=
  match s with [] => [] | c :: t => match strip_zeros t with [] => if Ascii.eqb c "0" then [] else [c] | r => c :: r end end.
Definition with_fraction (ip fp : str) : str := match strip_zeros fp with [] => ip | r => ip ++ "."%char :: r end.
Definition at_least_two (s : str) : str := match s with [c] => ["0"%char; c] | _ => s end.
Definition format_g (k x : Z) : str :=
  let ds := to_string k in
  if (-4 <=? x) && (x <? 6) then
    if 0 <=? x then with_fraction (firstn (Z.to_nat (x + 1)) ds) (skipn (Z.to_nat (x + 1)) ds)
    else with_fraction ["0"%char] (repeat "0"%char (Z.to_nat (- x - 1)) ++ ds)
  else with_fraction (firstn 1 ds) (skipn 1 ds) ++ "e"%char :: (if x <? 0 then "-"%char else "+"%char) :: at_least_two (to_string (Z.abs x)).
Definition print_g (v : spec_float) : str :=
  match v with
  | S754_nan => lit "nan"
  | S754_infinity s => (if s then lit "-" else []) ++ lit "inf"
  | S754_zero s => (if s then lit "-" else []) ++ lit "0"
  | S754_finite s m e => (if s then lit "-" else []) ++ (let (k, x) := six (scale_num 2 (Zpos m) (- e)) (scale_den 2 1 (- e)) in format_g k x)
  end.
(** string_cast.cpp 75-87: a buffer of 32 characters with the terminating zero; a float becomes a double, which changes no value *)
Definition to_str_float (v : spec_float) : str := c_str (firstn 31 (print_g v)).
