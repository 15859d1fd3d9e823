(** Model of the report of /repo/xo/system/profiler.cpp (without XO_PROFILER_MEASURE_OVERHEAD).
    Times are nanoseconds; the estimate of the overhead of one section is a parameter. Doubles are Flocq's. *)
From Coq Require Import Ascii String List Arith Bool ZArith SpecFloat.
From Flocq Require Import Core IEEE754.BinarySingleNaN.
From Verif Require Import Base Str StrModel CastModel PnSpec PnModel ProfModel FltSpec FltModel DurModel TxtModel.
Import ListNotations.
Local Open Scope Z_scope.

Definition f64_div (a b : f64) : f64 := @Bdiv 53 1024 prec64 emax64 mode_NE a b.

(** printf %wd, %w.0f, %w.2f; the sign of NaN is left out *)
Definition fill (w : nat) (s : str) : str := repeat " "%char (w - length s) ++ s.
Definition print_0f (v : spec_float) : str :=
  match v with
  | S754_nan => lit "nan"
  | S754_infinity s => (if s then lit "-" else []) ++ lit "inf"
  | S754_zero s => (if s then lit "-" else []) ++ lit "0"
  | S754_finite s m e => (if s then lit "-" else []) ++ to_string (round_div (scale_num 2 (Zpos m) (- e)) (scale_den 2 1 (- e)))
  end.
(** %d for a size_t: the lower 32 bits, which is what x86-64 takes *)
Definition as_int (n : nat) : Z := let z := Z.of_nat n mod 2 ^ 32 in if z <? 2 ^ 31 then z else z - 2 ^ 32.
(** math.h 9 and 85-92 *)
Definition f64_min (a b : f64) : f64 := if Bltb a b then a else b.
Definition f64_clamped (v lower upper : f64) : f64 := if Bltb v lower then lower else if Bltb upper v then upper else v.

(** profiler.cpp 118-124, as positions *)
Definition is_child (l : list section) (p i : nat) : bool :=
  match nth_error l i with Some s => match s_parent s with Some q => (q =? p)%nat | None => false end | None => false end.
Definition get_children (l : list section) (p : nat) : list nat := filter (is_child l p) (seq 0 (length l)).
Definition total_of (l : list section) (i : nat) : Z := match nth_error l i with Some s => s_total s | None => 0 end.

Fixpoint map_outcome {A B} (f : A -> outcome B) (l : list A) : outcome (list B) :=
  match l with [] => Ok [] | x :: r => do y <- f x; do ys <- map_outcome f r; Ok (y :: ys) end.

(** 181-192; [fuel] is more than the depth of the recursion *)
Fixpoint total_overhead (fuel : nat) (l : list section) (estimate : Z) (i : nat) : outcome Z :=
  match fuel with
  | O => UB
  | S fuel =>
    do s <- vec_get l i;
    do ts <- map_outcome (total_overhead fuel l estimate) (get_children l i);
    Ok (fold_left Z.add ts (estimate * Z.of_nat (s_count s)))
  end.

(** 138-145 *)
Definition share (t whole : Z) : f64 := f64_div (f64_mul (literal 100 0) (milliseconds t)) (milliseconds whole).
(** 141, 143 *)
Definition average_ns (own : Z) (count : nat) : f64 :=
  f64_min (literal 999999 0) (f64_mul (f64_div (milliseconds own) (f64_of_Z (Z.of_nat count))) (literal 1 6)).
(** 147-154 *)
Definition level_tag (x : f64) : str :=
  if Bltb x (literal 1 0) then lit "@2" else if Bltb x (literal 5 0) then lit "@3" else if Bltb x (literal 15 0) then lit "@4" else lit "@5".
(** 156, and stringf (string_tools.cpp 257-272) *)
Definition section_value (whole total own : Z) (count : nat) (overhead : Z) : str :=
  firstn 255 (
    fill 6 (print_0f (B2SF (milliseconds total))) ++ lit "ms " ++ fill 6 (print_f 2 (B2SF (share total whole))) ++ lit "% (" ++
    fill 5 (print_f 2 (B2SF (share own whole))) ++ lit "%) " ++ fill 6 (to_string (as_int count)) ++ lit " " ++
    fill 6 (print_0f (B2SF (average_ns own count))) ++ lit "ns ~" ++
    fill 2 (print_0f (B2SF (f64_clamped (share overhead total) (literal 0 0) (literal 99 0)))) ++ lit "% OH").

(** 136-165; [order] is std::sort with the times as keys, largest first *)
Fixpoint report_section (fuel : nat) (order : (nat -> Z) -> list nat -> list nat) (names : nat -> str) (l : list section) (estimate : Z) (minimum : f64) (tag : bool) (i : nat) : outcome (str * pn) :=
  match fuel with
  | O => UB
  | S fuel =>
    do r <- vec_get l 0;
    do s <- vec_get l i;
    do overhead <- total_overhead (S (length l)) l estimate i;
    let own := exclusive_time l i s in
    let key := (if tag then level_tag (share own (s_total r)) else []) ++ names (s_name s) in
    do cs <- (if Bleb minimum (share (s_total s) (s_total r)) then map_outcome (report_section fuel order names l estimate minimum tag) (order (total_of l) (get_children l i)) else Ok []);
    Ok (key, PN (section_value (s_total r) (s_total s) own (s_count s) overhead) cs false)
  end.
(** 126-134, at clock reading [t] *)
Definition prof_report (order : (nat -> Z) -> list nat -> list nat) (names : nat -> str) (estimate : Z) (p : profiler) (minimum : f64) (tag : bool) (t : Z) : outcome (pn * profiler) :=
  do p' <- (if p_enabled p then prof_stop p t else Ok p);
  do kc <- report_section (S (length (p_sections p'))) order names (p_sections p') estimate minimum tag 0;
  Ok (PN [] [kc] false, p').
(** 167-170 *)
Definition log_results (order : (nat -> Z) -> list nat -> list nat) (names : nat -> str) (estimate : Z) (p : profiler) (minimum : f64) (t : Z) : outcome (list message * profiler) :=
  do r <- prof_report order names estimate p minimum true t;
  do ms <- log_prop_node (fst r) 0 0;
  Ok (ms, snd r).
