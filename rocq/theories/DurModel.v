(** Model of the parts of /repo/xo/time/time.h that use double and of the text of times in /repo/xo/string/string_cast.cpp.
    Doubles are Flocq's [binary_float 53 1024], rounded to nearest even; a time is a number of nanoseconds, a long long. *)
From Coq Require Import Ascii String List Arith Bool ZArith SpecFloat.
From Flocq Require Import Core IEEE754.BinarySingleNaN.
From Verif Require Import Base Str StrModel CastModel UtilModel FltSpec FltModel.
Import ListNotations.
Local Open Scope Z_scope.

Definition prec64 : Prec_gt_0 53 := eq_refl.
Definition emax64 : Prec_lt_emax 53 1024 := eq_refl.
Definition f64 : Type := binary_float 53 1024.
(** double( n ) for an integer *)
Definition f64_of_Z (z : Z) : f64 := binary_normalize 53 1024 prec64 emax64 mode_NE z 0 false.
Definition f64_mul (a b : f64) : f64 := @Bmult 53 1024 prec64 emax64 mode_NE a b.
Definition f64_add (a b : f64) : f64 := @Bplus 53 1024 prec64 emax64 mode_NE a b.
Definition sf64 (x : spec_float) : f64 :=
  match Bool.bool_dec (valid_binary 53 1024 x) true with left H => SF2B x H | right _ => B754_nan end.
(** v * 10^q in the source text: the nearest double *)
Definition literal (v q : Z) : f64 := sf64 (round_scaled f_double false v 10 q).
(** conversion to long long, undefined when the number does not fit *)
Definition to_ll (x : f64) : outcome Z :=
  if is_finite x then (if (- 2 ^ 63 <=? Btrunc x) && (Btrunc x <? 2 ^ 63) then Ok (Btrunc x) else UB) else UB.
(** conversion to int *)
Definition to_int (x : f64) : outcome Z :=
  if is_finite x then (if (- 2 ^ 31 <=? Btrunc x) && (Btrunc x <? 2 ^ 31) then Ok (Btrunc x) else UB) else UB.

(** time.h 14-15 *)
Definition seconds (t : Z) : f64 := f64_mul (literal 1 (-9)) (f64_of_Z t).
(** time.h 17-18 *)
Definition milliseconds (t : Z) : f64 := f64_mul (literal 1 (-6)) (f64_of_Z t).
(** time.h 52-53 *)
Definition time_from_seconds (s : f64) : outcome Z := to_ll (f64_add (f64_mul s (literal 1 9)) (literal 5 (-1))).
Definition time_from_milliseconds (s : f64) : outcome Z := to_ll (f64_add (f64_mul s (literal 1 6)) (literal 5 (-1))).

(** snprintf %.*f with a positive number of decimals: the exact value rounded to nearest, ties to even *)
Definition pad_zero (width : nat) (s : str) : str := repeat "0"%char (width - length s) ++ s.
Definition format_f (d : nat) (k : Z) : str :=
  to_string (k / 10 ^ Z.of_nat d) ++ "."%char :: pad_zero d (to_string (k mod 10 ^ Z.of_nat d)).
Definition print_f (d : nat) (v : spec_float) : str :=
  match v with
  | S754_nan => lit "nan"
  | S754_infinity s => (if s then lit "-" else []) ++ lit "inf"
  | S754_zero s => (if s then lit "-" else []) ++ format_f d 0
  | S754_finite s m e => (if s then lit "-" else []) ++ format_f d (round_div (scale_num 2 (Zpos m) (- e) * 10 ^ Z.of_nat d) (scale_den 2 1 (- e)))
  end.
(** stringf: a buffer of 256 characters, string_tools.cpp 257-270; the texts without decimals below are shorter *)
Definition stringf_f (d : nat) (v : f64) : str := firstn 255 (print_f d (B2SF v)).

(** string_cast.cpp 166-188 *)
Definition time_to_str (t decimals : Z) (hide : f64) : outcome str :=
  let secondsd := seconds t in
  do secondsi <- to_int secondsd;
  let hours := Z.quot secondsi 3600 in
  let str1 := if 0 <? hours then to_string hours ++ lit ":" else [] in
  let secondsi := if 0 <? hours then secondsi - hours * 3600 else secondsi in
  let minutes := Z.quot secondsi 60 in
  let clock := (0 <? hours) || (0 <? minutes) in
  let str2 := if clock then str1 ++ (match str1 with [] => to_string minutes | _ => pad_int 2 minutes end) ++ lit ":" else str1 in
  let secondsi := if clock then secondsi - minutes * 60 else secondsi in
  Ok (str2 ++
    (if clock then pad_int 2 secondsi
     else if (decimals <=? 0) || Bleb hide secondsd then lit "0:" ++ pad_int 2 secondsi
     else stringf_f (Z.to_nat decimals) secondsd)).
(** string_cast.h 46: the default arguments *)
Definition time_to_str_default (t : Z) : outcome str := time_to_str t 3 (literal 10 0).

(** string_cast.cpp 190-194: the new value and the result; the value is not assigned on failure *)
Definition time_from_str (s : str) (v : Z) : outcome (Z * bool) :=
  let (d, ok) := from_str_float f_double s in
  if ok then do t <- time_from_seconds (sf64 d); Ok (t, true) else Ok (v, false).

(** stopwatch.cpp 12-17: the texts of the times and of their sum *)
Fixpoint report_from (ts : list Z) (total : Z) : outcome (list str) :=
  match ts with
  | [] => do s <- time_to_str_default total; Ok [s]
  | t :: r => do s <- time_to_str_default t; do l <- report_from r (total + t); Ok (s :: l)
  end.
(** stopwatch.cpp 8-22: set_to_str_precision (string_tools.cpp 282-286) changes a number that nothing reads *)
Definition report_times (decimals : Z) (ts : list Z) : outcome (list str) := report_from ts 0.
