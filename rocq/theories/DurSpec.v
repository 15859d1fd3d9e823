(** What texts of times say; independent of the model. *)
From Coq Require Import Ascii String List Arith Bool ZArith.
From Verif Require Import Str CastSpec.
Import ListNotations.
Local Open Scope Z_scope.

(** two decimal digits with the value [n] *)
Definition two_digits (t : str) (n : Z) : Prop := length t = 2%nat /\ Forall is_digit_char t /\ decimal_value t = n.
(** decimal digits without needless zeros *)
Definition plain_number (t : str) (n : Z) : Prop :=
  t <> [] /\ Forall is_digit_char t /\ decimal_value t = n /\ (t = ["0"%char] \/ hd "0"%char t <> "0"%char).
(** [n] seconds as h:mm:ss, or m:ss below one hour *)
Inductive clock_text : Z -> str -> Prop :=
| clock_minutes m s mt st : 0 <= m < 60 -> 0 <= s < 60 -> plain_number mt m -> two_digits st s -> clock_text (60 * m + s) (mt ++ ":"%char :: st)
| clock_hours h m s ht mt st : 0 < h -> 0 <= m < 60 -> 0 <= s < 60 -> plain_number ht h -> two_digits mt m -> two_digits st s ->
    clock_text (3600 * h + 60 * m + s) (ht ++ ":"%char :: mt ++ ":"%char :: st).
(** k / 10^d, written with [d] decimals *)
Definition fixed_text (k : Z) (d : nat) (t : str) : Prop :=
  exists ip fp, t = ip ++ "."%char :: fp /\ length fp = d /\ Forall is_digit_char fp /\ decimal_value (ip ++ fp) = k /\
    plain_number ip (k / 10 ^ Z.of_nat d).
(** among the numbers of nanoseconds with [d] decimals of a second, k / 10^d seconds is nearest to [t] *)
Definition decimal_near (t k : Z) (d : nat) : Prop := 2 * Z.abs (k * 10 ^ (9 - Z.of_nat d) - t) <= 10 ^ (9 - Z.of_nat d).
