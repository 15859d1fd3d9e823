(** What integer text means, how versions are ordered, what flags are; independent of the models. *)
From Coq Require Import Ascii String List Arith Bool ZArith.
From Verif Require Import Str.
Import ListNotations.
Local Open Scope Z_scope.

(** the integer types with a text conversion *)
Inductive int_kind := KInt | KUInt | KLong | KULong | KLLong | KULLong.
Definition kind_min (k : int_kind) : Z :=
  match k with KInt => - 2 ^ 31 | KLong | KLLong => - 2 ^ 63 | KUInt | KULong | KULLong => 0 end.
Definition kind_max (k : int_kind) : Z :=
  match k with KInt => 2 ^ 31 - 1 | KUInt => 2 ^ 32 - 1 | KLong | KLLong => 2 ^ 63 - 1 | KULong | KULLong => 2 ^ 64 - 1 end.

Definition is_digit_char (c : ascii) : Prop := (48 <= nat_of_ascii c <= 57)%nat.
Definition is_space_char (c : ascii) : Prop := In c [" "%char; tab; lf; vt; ff; cr].

(** value of a string of decimal digits, most significant first *)
Definition decimal_value (ds : str) : Z :=
  fold_left (fun a c => 10 * a + (Z.of_nat (nat_of_ascii c) - 48)) ds 0.

Inductive sign_text : str -> Z -> Prop :=
| sign_none : sign_text [] 1
| sign_plus : sign_text ["+"%char] 1
| sign_minus : sign_text ["-"%char] (-1).

(** [s] is blanks, an optional sign and at least one decimal digit, denoting [z] *)
Definition int_text (s : str) (z : Z) : Prop :=
  exists ws sg ds sgn, s = ws ++ sg ++ ds /\ Forall is_space_char ws /\ sign_text sg sgn /\
    ds <> [] /\ Forall is_digit_char ds /\ z = sgn * decimal_value ds.

(** four-part versions *)
Record ver := Ver { v_major : Z; v_minor : Z; v_patch : Z; v_build : Z; v_postfix : str }.

(** lexicographic order *)
Fixpoint lex_lt (a b : list Z) : Prop :=
  match a, b with
  | x :: s, y :: t => x < y \/ (x = y /\ lex_lt s t)
  | _, _ => False
  end.

(** numbers that take part in the comparison of two versions *)
Definition ver_numbers (both_builds : bool) (v : ver) : list Z :=
  [v_major v; v_minor v; v_patch v] ++ (if both_builds then [v_build v] else []).

Definition dash : ascii := "-"%char.
