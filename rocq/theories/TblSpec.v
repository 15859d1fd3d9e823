(** Storages and tables as text; independent of the models. *)
From Coq Require Import Ascii String List Arith Bool ZArith Reals SpecFloat.
From Verif Require Import Str CastSpec FltSpec.
Import ListNotations.

(** a label that is one word *)
Definition word (l : str) : Prop := l <> [] /\ Forall (fun c => ~ is_space_char c) l.
(** the lines of a text: its pieces between newlines, not counting nothing at all behind the last newline *)
Inductive lines_of : str -> list str -> Prop :=
| lines_none : lines_of [] []
| lines_last l : l <> [] -> ~ In lf l -> lines_of l [l]
| lines_more l t ls : ~ In lf l -> lines_of t ls -> lines_of (l ++ lf :: t) (l :: ls).
(** a number, or one of the words inf and nan, at the beginning of a text, behind spaces and a sign *)
Definition begins_with_number (s : str) : Prop := exists ws sg sgn r, s = ws ++ sg ++ r /\ Forall is_space_char ws /\ sign_text sg sgn /\ number_begins r.
Definition space_or_end (r : str) : Prop := match r with [] => True | c :: _ => is_space_char c end.
(** the numbers at the beginning of a line, up to [n] of them, each with what has to hold of the value: a decimal number gives the nearest number;
    behind the last number, and from something that is no number on, the values are 0 *)
Inductive line_values (f : format) : nat -> str -> list (spec_float -> Prop) -> Prop :=
| line_full r : line_values f 0 r []
| line_number n ws s sgn v r vs : Forall is_space_char ws -> decimal_text s sgn v -> number_ends r -> line_values f n r vs ->
    line_values f (S n) (ws ++ s ++ r) ((fun y => negative y = (sgn <? 0)%Z /\ nearest f v y) :: vs)
| line_inf n ws sg sgn w r vs : Forall is_space_char ws -> sign_text sg sgn -> any_case w (list_ascii_of_string "inf") -> space_or_end r -> line_values f n r vs ->
    line_values f (S n) (ws ++ sg ++ w ++ r) ((fun y => y = S754_infinity (sgn <? 0)%Z) :: vs)
| line_nan n ws sg sgn w r vs : Forall is_space_char ws -> sign_text sg sgn -> any_case w (list_ascii_of_string "nan") -> space_or_end r -> line_values f n r vs ->
    line_values f (S n) (ws ++ sg ++ w ++ r) ((fun y => y = S754_nan) :: vs)
| line_stop n r : ~ begins_with_number r -> line_values f n r (repeat (fun y => y = S754_zero false) n).
(** a table of values, row by row *)
Definition rectangular {A} (n : nat) (rows : list (list A)) : Prop := Forall (fun r => length r = n) rows.
