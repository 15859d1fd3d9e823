(** Floating-point numbers as text. *)
From Coq Require Import Ascii String List Arith Bool NArith ZArith Reals SpecFloat Lia Lra.
From Verif Require Import Base Str StrBase StrModel CastSpec CastModel FltSpec FltModel FltNum FltText FltProofs FltRead.
Import ListNotations.
Local Open Scope Z_scope.

(** the types of C++ *)
Definition cpp_type (f : format) : Prop := f = f_double \/ f = f_float.
Lemma cpp_writable f : cpp_type f -> writable f.
Proof. intros [->| ->]; [exact writable_double|exact writable_float]. Qed.
Lemma cpp_usable f : cpp_type f -> usable f.
Proof. intros H. exact (proj1 (cpp_writable f H)). Qed.
(** 1/2, 1/3, 3/2 as doubles *)
Definition half : spec_float := S754_finite false 4503599627370496 (-53).
Definition third : spec_float := S754_finite false 6004799503160661 (-54).
Definition minus_three_halves : spec_float := S754_finite true 6755399441055744 (-52).

(** C138: a decimal number in a text is read as the nearest number of the type, infinity when too large; spaces before and text behind it do not
    matter. *)
Theorem C138_decimal (f : format) (ws s r : str) (sgn : Z) (v : R) : cpp_type f -> Forall is_space_char ws -> decimal_text s sgn v -> number_ends r ->
  snd (from_str_float f (ws ++ s ++ r)) = true /\ negative (fst (from_str_float f (ws ++ s ++ r))) = (sgn <? 0) /\ nearest f v (fst (from_str_float f (ws ++ s ++ r))).
Proof. intros T. exact (read_nearest f ws s sgn v r (cpp_usable f T)). Qed.
Print Assumptions C138_decimal.
Example C138_decimal_case : from_str_float f_double (lit " -1.5") = (minus_three_halves, true) /\ from_str_float f_double (lit "3333333333333333.3e-16 m") = (S754_finite false 6004799503160661 (-54), true) /\
  from_str_float f_float (lit "1e39") = (S754_infinity false, true) /\ from_str_float f_double (lit "-1e-400") = (S754_zero true, true).
Proof. repeat split; vm_compute; reflexivity. Qed.
Example C138_decimal_hyp : decimal_text (lit "-1.5e+1") (-1) 15.
Proof.
  pose proof (decimal (lit "-") (-1) (lit "1") (lit ".") (lit "5") (lit "e+1") 1) as D. replace 15%R with (IZR (decimal_value (lit "1" ++ lit "5")) * powerRZ 10 (1 - Z.of_nat (length (lit "5"))))%R by (vm_compute; lra).
  assert (G : forall c, In c (lit "15") -> Forall is_digit_char [c]) by (intros c I; constructor; [destruct I as [<-|[<-|[]]]; unfold is_digit_char; cbv; lia|constructor]).
  apply D; [constructor|apply G; cbn; tauto|apply G; cbn; tauto|discriminate|left; reflexivity|]. apply (exponent_some "e" (lit "+") 1 (lit "1")); [cbn; tauto|constructor|discriminate|apply G; cbn; tauto].
Qed.
(** so is a hexadecimal number *)
Theorem C138_hexadecimal (f : format) (ws s r : str) (sgn : Z) (v : R) : cpp_type f -> Forall is_space_char ws -> hexadecimal_text s sgn v -> hexadecimal_ends r ->
  snd (from_str_float f (ws ++ s ++ r)) = true /\ negative (fst (from_str_float f (ws ++ s ++ r))) = (sgn <? 0) /\ nearest f v (fst (from_str_float f (ws ++ s ++ r))).
Proof. intros T. exact (read_hexadecimal f ws s sgn v r (cpp_usable f T)). Qed.
Print Assumptions C138_hexadecimal.
Example C138_hexadecimal_case : from_str_float f_double (lit "-0x1.8p0") = (minus_three_halves, true) /\ from_str_float f_double (lit "0XaG") = from_str_float f_double (lit "10") /\
  hexadecimal_text (lit "0xA") 1 10.
Proof.
  split; [vm_compute; reflexivity|]. split; [vm_compute; reflexivity|]. replace 10%R with (IZR (hex_value [10%Z]) * powerRZ 2 (0 - 4 * Z.of_nat (length (@nil ascii))))%R by (vm_compute; lra).
  apply (hexadecimal [] 1 "x" (lit "A") [] [] [10] [] 0); [constructor|cbn; tauto| |discriminate|auto|constructor]. constructor; [exists 10%nat; split; [reflexivity|right; reflexivity]|constructor].
Qed.
(** and the words inf and nan in small or capital letters *)
Theorem C138_words (f : format) (ws sg w r : str) (sgn : Z) : Forall is_space_char ws -> sign_text sg sgn ->
  (any_case w (lit "inf") -> from_str_float f (ws ++ sg ++ w ++ r) = (S754_infinity (sgn <? 0), true)) /\
  (any_case w (lit "nan") -> from_str_float f (ws ++ sg ++ w ++ r) = (S754_nan, true)).
Proof. exact (words_read f ws sg sgn w r). Qed.
Print Assumptions C138_words.
Example C138_words_case : any_case (lit "iNf") (lit "inf") /\ from_str_float f_double (lit " -Infinity") = (S754_infinity true, true) /\ from_str_float f_float (lit "nano") = (S754_nan, true).
Proof. split; [|split; vm_compute; reflexivity]. constructor; [left; reflexivity|]. constructor; [right; reflexivity|]. constructor; [left; reflexivity|constructor]. Qed.
(** exactly the texts that begin with a number, after spaces and a sign, are accepted *)
Theorem C138_accepts (f : format) (s : str) : snd (from_str_float f s) = true <-> exists ws sg sgn r, s = ws ++ sg ++ r /\ Forall is_space_char ws /\ sign_text sg sgn /\ number_begins r.
Proof. exact (accepts f s). Qed.
Print Assumptions C138_accepts.
Example C138_accepts_case : snd (from_str_float f_double (lit "x1")) = false /\ snd (from_str_float f_double (lit " + 1")) = false /\ snd (from_str_float f_double (lit "-.e1")) = false /\ snd (from_str_float f_double (lit "-.0x")) = true.
Proof. repeat split; vm_compute; reflexivity. Qed.
(** a refused text gives zero *)
Theorem C138_refused (f : format) (s : str) : snd (from_str_float f s) = false -> fst (from_str_float f s) = S754_zero false.
Proof. exact (refused f s). Qed.
Print Assumptions C138_refused.
Example C138_refused_case : from_str_float f_float [] = (S754_zero false, false).
Proof. reflexivity. Qed.

(** C139: a number is written as the nearest number of six digits, without needless zeros, with an exponent only below 0.0001 and from a million,
    in at most 13 characters. *)
Theorem C139_text (f : format) (x : spec_float) : cpp_type f -> of_format f x -> finite x -> value x <> 0%R ->
  exists d s, nearest_six (value x) d /\ neat_text s (Rabs d) /\ to_str_float x = (if negative x then lit "-" else []) ++ s /\ (length (to_str_float x) <= 13)%nat.
Proof.
  intros T X F N. destruct (print_assembled f x (cpp_writable f T) X F N) as (s & A & B & C & D). exists (rnd10 (value x)), s. split; [exact D|]. split; [exact C|]. split; [exact A|exact B].
Qed.
Print Assumptions C139_text.
Example C139_text_case : of_format f_double third /\ to_str_float third = lit "0.333333" /\ to_str_float minus_three_halves = lit "-1.5" /\ to_str_float (S754_finite true 1 (-149)) = lit "-1.4013e-45" /\
  to_str_float (S754_finite false 16777215 104) = lit "3.40282e+38" /\ to_str_float (S754_finite false 15625 6) = lit "1e+06" /\ to_str_float (S754_finite false 8191999 (-13)) = lit "1000".
Proof. repeat split; vm_compute; reflexivity. Qed.
Theorem C139_special (b : bool) : to_str_float (S754_zero b) = (if b then lit "-0" else lit "0") /\ to_str_float (S754_infinity b) = (if b then lit "-inf" else lit "inf") /\ to_str_float S754_nan = lit "nan".
Proof. destruct b; repeat split. Qed.
Print Assumptions C139_special.
(** whole numbers below a million are written as integers *)
Theorem C139_integer (f : format) (x : spec_float) (n : Z) : cpp_type f -> of_format f x -> finite x -> value x = IZR n -> n <> 0 -> Z.abs n < 1000000 -> to_str_float x = to_string n.
Proof. intros T. exact (integer_text f x n (cpp_writable f T)). Qed.
Print Assumptions C139_integer.
Example C139_integer_case : of_format f_double (S754_finite true 8444249301319680 (-45)) /\ to_str_float (S754_finite true 8444249301319680 (-45)) = lit "-240" /\ to_string (-240) = lit "-240".
Proof. repeat split; vm_compute; reflexivity. Qed.

(** C140: a number written and read again is a number of the same sign at most a hundred-thousandth off. *)
Theorem C140_close (f : format) (x : spec_float) (ws r : str) : cpp_type f -> of_format f x -> finite x -> Forall is_space_char ws -> number_ends r ->
  let y := fst (from_str_float f (ws ++ to_str_float x ++ r)) in
  snd (from_str_float f (ws ++ to_str_float x ++ r)) = true /\ of_format f y /\ finite y /\ negative y = negative x /\ (Rabs (value y - value x) <= / 100000 * Rabs (value x))%R.
Proof. intros T. exact (close_assembled f x ws r (cpp_writable f T)). Qed.
Print Assumptions C140_close.
Example C140_close_case : fst (from_str_float f_double (lit " " ++ to_str_float third ++ lit " ")) = S754_finite false 6004793498361158 (-54).
Proof. vm_compute. reflexivity. Qed.
(** numbers of at most six digits are not changed *)
Theorem C140_six (f : format) (x : spec_float) (ws r : str) : cpp_type f -> of_format f x -> finite x -> Forall is_space_char ws -> number_ends r -> six_digits (value x) ->
  from_str_float f (ws ++ to_str_float x ++ r) = (x, true).
Proof. intros T. exact (six_kept f x ws r (cpp_writable f T)). Qed.
Print Assumptions C140_six.
Example C140_six_case : six_digits (value minus_three_halves) /\ from_str_float f_double (to_str_float minus_three_halves) = (minus_three_halves, true).
Proof.
  split; [|vm_compute; reflexivity]. exists (-15), (-1). split; [reflexivity|]. unfold minus_three_halves, value. rewrite p2, p10. cbn. lra.
Qed.
(** nor are zeros, infinities and what is not a number *)
Theorem C140_special (f : format) (x : spec_float) : ~ (exists s m e, x = S754_finite s m e) -> from_str_float f (to_str_float x) = (x, true).
Proof. intros N. destruct x as [s|s| |s m e]; [destruct s; reflexivity|destruct s; reflexivity|reflexivity|]. exfalso. apply N. exists s, m, e. reflexivity. Qed.
Print Assumptions C140_special.
(** other numbers can change *)
Theorem C140_exact_refuted : ~ (forall x, of_format f_double x -> finite x -> from_str_float f_double (to_str_float x) = (x, true)).
Proof. intros H. specialize (H third eq_refl I). vm_compute in H. discriminate. Qed.
Print Assumptions C140_exact_refuted.

(** C141: writing and reading numbers keeps their order; different numbers can become equal. *)
Theorem C141_order (f : format) (x y : spec_float) : cpp_type f -> of_format f x -> finite x -> of_format f y -> finite y -> (value x <= value y)%R ->
  (value (fst (from_str_float f (to_str_float x))) <= value (fst (from_str_float f (to_str_float y))))%R.
Proof. intros T. exact (order_assembled f x y (cpp_writable f T)). Qed.
Print Assumptions C141_order.
Theorem C141_strict_refuted : ~ (forall x y, of_format f_double x -> finite x -> of_format f_double y -> finite y -> (value x < value y)%R -> to_str_float x <> to_str_float y).
Proof.
  intros H. apply (H third (S754_finite false 6004799503160662 (-54)) eq_refl I eq_refl I); [|vm_compute; reflexivity]. unfold third, value. apply Rmult_lt_compat_r; [apply powerRZ_lt; lra|apply IZR_lt; reflexivity].
Qed.
Print Assumptions C141_strict_refuted.
Example C141_order_case : (value half <= value (S754_finite false 4503599627370497 (-53)))%R /\ to_str_float half = lit "0.5".
Proof. split; [|vm_compute; reflexivity]. unfold half, value. apply Rmult_le_compat_r; [apply powerRZ_le; lra|apply IZR_le; discriminate]. Qed.

(** C142: reading what was written and writing it again gives the same text. Proved for zero and numbers with a full mantissa; smaller ones have too
    few digits. *)
Theorem C142_stable_partial (f : format) (x : spec_float) : cpp_type f -> of_format f x -> finite x -> (value x = 0 \/ smallest_normal f <= Rabs (value x))%R ->
  to_str_float (fst (from_str_float f (to_str_float x))) = to_str_float x.
Proof. intros T. exact (stable_assembled f x (cpp_writable f T)). Qed.
Print Assumptions C142_stable_partial.
Example C142_stable_case : (smallest_normal f_double <= Rabs (value third))%R /\ to_str_float (fst (from_str_float f_double (to_str_float third))) = lit "0.333333".
Proof.
  split; [|vm_compute; reflexivity]. unfold smallest_normal, third, value. rewrite Rabs_pos_eq by (apply Rmult_le_pos; [lra|apply powerRZ_le; lra]). apply Rle_trans with (1 * powerRZ 2 (-54))%R.
  - rewrite Rmult_1_l. rewrite !p2. apply Flocq.Core.Raux.bpow_le. vm_compute. discriminate.
  - apply Rmult_le_compat_r; [apply powerRZ_le; lra|lra].
Qed.
Theorem C142_subnormal_refuted : ~ (forall x, of_format f_double x -> finite x -> to_str_float (fst (from_str_float f_double (to_str_float x))) = to_str_float x).
Proof. intros H. specialize (H (S754_finite false 202403 (-1074)) eq_refl I). vm_compute in H. discriminate. Qed.
Print Assumptions C142_subnormal_refuted.
(** a number typed with at most six digits is written with the same digits *)
Theorem C142_typed (f : format) (ws s r : str) (sgn : Z) (v : R) : cpp_type f -> Forall is_space_char ws -> decimal_text s sgn v -> number_ends r -> six_digits v ->
  (smallest_normal f <= v < overflow_threshold f)%R -> exists t, to_str_float (fst (from_str_float f (ws ++ s ++ r))) = (if sgn <? 0 then lit "-" else []) ++ t /\ neat_text t v.
Proof. intros T. exact (typed_kept f ws s sgn v r (cpp_writable f T)). Qed.
Print Assumptions C142_typed.
Example C142_typed_case : to_str_float (fst (from_str_float f_float (lit " -00.1000e0,"))) = lit "-0.1" /\ to_str_float (fst (from_str_float f_float (lit "123456e3"))) = lit "1.23456e+08" /\
  to_str_float (fst (from_str_float f_double (lit "1234567"))) = lit "1.23457e+06".
Proof. repeat split; vm_compute; reflexivity. Qed.
