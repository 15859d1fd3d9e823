(** Colours: what the functions are for; independent of the models. *)
From Coq Require Import Ascii String List Arith Bool NArith ZArith Reals.
From Flocq Require Import Core IEEE754.BinarySingleNaN.
From Verif Require Import Base Str StrSpec PnSpec GpnSpec.
Import ListNotations.

(** red, green, blue and alpha *)
Record rgba (T : Type) : Type := C4 { c_r : T; c_g : T; c_b : T; c_a : T }.
Arguments C4 {T}. Arguments c_r {T}. Arguments c_g {T}. Arguments c_b {T}. Arguments c_a {T}.

(** byte number [i] of a number, from the least significant one *)
Definition byte_of (x : N) (i : N) : N := ((x / 256 ^ i) mod 256)%N.

(** lexicographic order on (r, g, b, a), for any order on the channels; equivalent channels need not be identical *)
Definition lex_less {T} (lt : T -> T -> Prop) (a b : rgba T) : Prop :=
  let eqv x y := ~ lt x y /\ ~ lt y x in
  lt (c_r a) (c_r b) \/ (eqv (c_r a) (c_r b) /\ (lt (c_g a) (c_g b) \/ (eqv (c_g a) (c_g b) /\ (lt (c_b a) (c_b b) \/ (eqv (c_b a) (c_b b) /\ lt (c_a a) (c_a b)))))).

(** hexadecimal digits in either case *)
Definition hex_value (c : ascii) : option N :=
  let n := N_of_ascii c in
  if ((48 <=? n) && (n <=? 57))%N then Some (n - 48)%N
  else if ((97 <=? n) && (n <=? 102))%N then Some (n - 87)%N
  else if ((65 <=? n) && (n <=? 70))%N then Some (n - 55)%N
  else None.
Fixpoint hex_number (acc : N) (s : str) : option N :=
  match s with
  | [] => Some acc
  | c :: r => match hex_value c with Some d => hex_number (16 * acc + d)%N r | None => None end
  end.

(** what may stand before the digits *)
Definition hex_prefix (p : str) : Prop := p = [] \/ p = lit "0x" \/ p = lit "0X".
(** what separates the words of a colour such as rgb(10, 20, 30) *)
Definition seps : str := lit ",; ()".
(** a float that stands for byte [b]: b/255 up to rounding, and exactly 1 for 255 *)
Definition near_byte (b : N) (x : binary_float 24 128) : Prop :=
  is_finite x = true /\ (Rabs (B2R x - IZR (Z.of_N b) / 255) <= / 2 ^ 23)%R /\ (b = 255%N -> B2R x = 1%R).
(** text of ASCII characters, and the same text in lower case *)
Definition ascii_text (s : str) : Prop := Forall (fun c => (N_of_ascii c < 128)%N) s.
Definition lower_char (c : ascii) : ascii := if ((65 <=? N_of_ascii c) && (N_of_ascii c <=? 90))%N then ascii_of_N (N_of_ascii c + 32) else c.
Definition lower_case (s : str) : str := map lower_char s.
(** child [i] of the tree is a number; [x] is the number under key [k], or that of child [i] if the key is not there *)
Definition named_or_at {T} (from_str : str -> option T) (t : pn) (k : str) (i : nat) (x : T) : Prop :=
  exists kc d, nth_error (pn_children t) i = Some kc /\ from_str (pn_value (snd kc)) = Some d /\ (num_at from_str t k x \/ (~ In k (pn_keys t) /\ x = d)).
(** the number under key [k], or the default [d] *)
Definition num_or {T} (from_str : str -> option T) (t : pn) (k : str) (d x : T) : Prop :=
  num_at from_str t k x \/ (~ In k (pn_keys t) /\ x = d).

Local Open Scope R_scope.
(** The channel of a hue, saturation, value colour: [n] is 5 for red, 3 for green and 1 for blue. The distance k around the hue circle, counted in sixths from a point that depends on the channel, gives a trapezoid wave. *)
Definition hsv_channel (n H S V x : R) : Prop :=
  exists k : R, 0 <= k < 6 /\ (exists z : Z, k = n + H / 60 + 6 * IZR z) /\ x = V - V * S * Rmax 0 (Rmin 1 (Rmin k (4 - k))).
Definition is_hsv (c : rgba R) (H S V : R) : Prop :=
  hsv_channel 5 H S V (c_r c) /\ hsv_channel 3 H S V (c_g c) /\ hsv_channel 1 H S V (c_b c) /\ c_a c = 1.
Definition largest_channel (c : rgba R) : R := Rmax (c_r c) (Rmax (c_g c) (c_b c)).
Definition smallest_channel (c : rgba R) : R := Rmin (c_r c) (Rmin (c_g c) (c_b c)).
Definition unit_channels (c : rgba R) : Prop :=
  0 <= c_r c <= 1 /\ 0 <= c_g c <= 1 /\ 0 <= c_b c <= 1 /\ 0 <= c_a c <= 1.
(** every channel *)
Definition each {A B} (P : A -> B -> Prop) (a : rgba A) (b : rgba B) : Prop :=
  P (c_r a) (c_r b) /\ P (c_g a) (c_g b) /\ P (c_b a) (c_b b) /\ P (c_a a) (c_a b).
(** brightness as in http://alienryderflex.com/hsp.html *)
Definition is_brightness (c : rgba R) (y : R) : Prop :=
  0 <= y /\ y * y = 299 / 1000 * (c_r c * c_r c) + 587 / 1000 * (c_g c * c_g c) + 114 / 1000 * (c_b c * c_b c).

(** colour stops: the positions of two stops with no stop in between *)
Definition next_stop {C} (stops : list (R * C)) (x1 x2 : R) : Prop :=
  x1 < x2 /\ In x1 (map fst stops) /\ In x2 (map fst stops) /\ forall x, In x (map fst stops) -> x <= x1 \/ x2 <= x.
Definition first_stop {C} (stops : list (R * C)) (x : R) : Prop := In x (map fst stops) /\ forall x', In x' (map fst stops) -> x <= x'.
Definition last_stop {C} (stops : list (R * C)) (x : R) : Prop := In x (map fst stops) /\ forall x', In x' (map fst stops) -> x' <= x.
(** the colour a fraction t of the way from a to b *)
Definition mixed (a b : rgba R) (t : R) (c : rgba R) : Prop :=
  c_r c = (1 - t) * c_r a + t * c_r b /\ c_g c = (1 - t) * c_g a + t * c_g b /\ c_b c = (1 - t) * c_b a + t * c_b b /\ c_a c = (1 - t) * c_a a + t * c_a b.
Close Scope R_scope.
