(** Floating-point numbers and their decimal texts; independent of the model. *)
From Coq Require Import Ascii String List Arith Bool ZArith Reals SpecFloat.
From Verif Require Import Str CastSpec.
Import ListNotations.
Local Open Scope Z_scope.

(** the floating-point types: number of bits of the mantissa, and the power of two no number reaches *)
Record format := Format { bits : Z; top : Z }.
Definition f_double : format := Format 53 1024.
Definition f_float : format := Format 24 128.
Definition of_format (f : format) (x : spec_float) : Prop := valid_binary (bits f) (top f) x = true.
(** exponent of the smallest positive number; the smallest number with a full mantissa *)
Definition bottom (f : format) : Z := 3 - top f - bits f.
Definition smallest_normal (f : format) : R := powerRZ 2 (bottom f + bits f - 1).

Definition finite (x : spec_float) : Prop := match x with S754_zero _ | S754_finite _ _ _ => True | _ => False end.
Definition negative (x : spec_float) : bool := match x with S754_zero s | S754_infinity s | S754_finite s _ _ => s | S754_nan => false end.
Definition value (x : spec_float) : R :=
  match x with S754_finite s m e => ((if s then - IZR (Zpos m) else IZR (Zpos m)) * powerRZ 2 e)%R | _ => 0%R end.
(** the floating-point number nearest to a positive number, the one with an even mantissa if two are as near;
    infinity from half way beyond the largest *)
Definition even_mantissa (x : spec_float) : Prop := match x with S754_finite _ m _ => Z.even (Zpos m) = true | _ => True end.
Definition overflow_threshold (f : format) : R := (powerRZ 2 (top f) - powerRZ 2 (top f - bits f - 1))%R.
Definition nearest (f : format) (v : R) (y : spec_float) : Prop :=
  of_format f y /\
  if Rlt_dec v (overflow_threshold f) then
    finite y /\ forall z, of_format f z -> finite z ->
      (Rabs (Rabs (value y) - v) <= Rabs (Rabs (value z) - v))%R /\
      (Rabs (Rabs (value y) - v) = Rabs (Rabs (value z) - v) -> Rabs (value z) = Rabs (value y) \/ even_mantissa y)%R
  else y = S754_infinity (negative y).

(** an exponent, or nothing *)
Inductive exponent_text : str -> Z -> Prop :=
| exponent_none : exponent_text [] 0
| exponent_some c sg sgn ds : In c ["e"%char; "E"%char] -> sign_text sg sgn -> ds <> [] -> Forall is_digit_char ds ->
    exponent_text (c :: sg ++ ds) (sgn * decimal_value ds).
(** a decimal number: sign, digits with or without a point, exponent; its sign and its magnitude *)
Inductive decimal_text : str -> Z -> R -> Prop :=
| decimal sg sgn ip pt fp ex x : sign_text sg sgn -> Forall is_digit_char ip -> Forall is_digit_char fp -> ip ++ fp <> [] ->
    pt = ["."%char] \/ (pt = [] /\ fp = []) -> exponent_text ex x ->
    decimal_text (sg ++ ip ++ pt ++ fp ++ ex) sgn (IZR (decimal_value (ip ++ fp)) * powerRZ 10 (x - Z.of_nat (length fp))).
(** text that does not continue a number *)
Definition number_ends (r : str) : Prop :=
  match r with [] => True | c :: _ => ~ is_digit_char c /\ ~ In c ["."; "e"; "E"; "x"; "X"]%char end.

(** numbers with at most six significant decimal digits *)
Definition six_digits (d : R) : Prop := exists k q, (Z.abs k < 10 ^ 6)%Z /\ d = (IZR k * powerRZ 10 q)%R.
(** [d] is the six-digit number nearest to [x], the one with an even sixth digit if two are as near *)
Definition even_sixth (d : R) : Prop := exists k q, (10 ^ 5 <= Z.abs (2 * k) < 10 ^ 6)%Z /\ d = (IZR (2 * k) * powerRZ 10 q)%R.
Definition nearest_six (x d : R) : Prop :=
  six_digits d /\ forall d', six_digits d' -> (Rabs (d - x) <= Rabs (d' - x))%R /\ (Rabs (d - x) = Rabs (d' - x) -> d' = d \/ even_sixth d)%R.

(** how a positive number is written: no needless zeros; without exponent from 0.0001 up to a million *)
Inductive neat_text : str -> R -> Prop :=
| neat_whole ip : ip <> [] -> Forall is_digit_char ip -> (hd "0"%char ip <> "0"%char) -> (IZR (decimal_value ip) < 1000000)%R -> neat_text ip (IZR (decimal_value ip))
| neat_fraction ip fp v : ip <> [] -> Forall is_digit_char ip -> Forall is_digit_char fp -> fp <> [] -> last fp "0"%char <> "0"%char ->
    (ip = ["0"%char] \/ hd "0"%char ip <> "0"%char) -> v = (IZR (decimal_value (ip ++ fp)) * powerRZ 10 (- Z.of_nat (length fp)))%R -> (/ 10000 <= v < 1000000)%R ->
    neat_text (ip ++ "."%char :: fp) v
| neat_exponent c fp sg sgn ds v : is_digit_char c -> c <> "0"%char -> Forall is_digit_char fp -> (fp <> [] -> last fp "0"%char <> "0"%char) ->
    (sg = ["+"%char] /\ sgn = 1 \/ sg = ["-"%char] /\ sgn = -1) -> (length ds >= 2)%nat -> Forall is_digit_char ds -> (hd "0"%char ds = "0"%char -> length ds = 2%nat) ->
    v = (IZR (decimal_value (c :: fp)) * powerRZ 10 (sgn * decimal_value ds - Z.of_nat (length fp)))%R -> ~ (/ 10000 <= v < 1000000)%R ->
    neat_text (c :: (match fp with [] => [] | _ => "."%char :: fp end) ++ "e"%char :: sg ++ ds) v.

(** hexadecimal numbers *)
Definition hex_digit (c : ascii) (v : Z) : Prop :=
  exists n, v = Z.of_nat n /\ (nth_error (list_ascii_of_string "0123456789abcdef") n = Some c \/ nth_error (list_ascii_of_string "0123456789ABCDEF") n = Some c).
Definition hex_value (vs : list Z) : Z := fold_left (fun a v => 16 * a + v) vs 0.
Inductive binary_exponent : str -> Z -> Prop :=
| binary_none : binary_exponent [] 0
| binary_some c sg sgn ds : In c ["p"%char; "P"%char] -> sign_text sg sgn -> ds <> [] -> Forall is_digit_char ds -> binary_exponent (c :: sg ++ ds) (sgn * decimal_value ds).
Inductive hexadecimal_text : str -> Z -> R -> Prop :=
| hexadecimal sg sgn z ip pt fp vs ex x : sign_text sg sgn -> In z ["x"; "X"]%char -> Forall2 hex_digit (ip ++ fp) vs -> vs <> [] ->
    pt = ["."%char] \/ (pt = [] /\ fp = []) -> binary_exponent ex x ->
    hexadecimal_text (sg ++ "0"%char :: z :: ip ++ pt ++ fp ++ ex) sgn (IZR (hex_value vs) * powerRZ 2 (x - 4 * Z.of_nat (length fp))).
Definition hexadecimal_ends (r : str) : Prop :=
  match r with [] => True | c :: _ => ~ (exists v, hex_digit c v) /\ ~ In c ["."; "p"; "P"]%char end.
(** a word in small or capital letters *)
Definition any_case (w word : str) : Prop := Forall2 (fun a b => a = b \/ N_of_ascii b = (N_of_ascii a + 32)%N) w word.
(** text that begins with something that is a number: a digit, a point and a digit, or one of the words inf and nan *)
Definition number_begins (r : str) : Prop :=
  (exists c t, r = c :: t /\ is_digit_char c) \/ (exists c t, r = "."%char :: c :: t /\ is_digit_char c) \/
  exists w t, r = w ++ t /\ (any_case w (list_ascii_of_string "inf") \/ any_case w (list_ascii_of_string "nan")).
