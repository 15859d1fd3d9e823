(** Models of math.h, bounds.h, compare.h and bounded.h in /repo/xo/numerical. *)
From Coq Require Import List Arith Bool NArith ZArith Reals Lra.
From Coq Require Import Floats.SpecFloat.
From Verif Require Import Base NumSpec.
Import ListNotations.

(** ** functions that only compare: for any < and <= (so also for float and double) *)
Section Order.
  Context {T : Type} (ltb leb : T -> T -> bool).
  (** math.h 9-14 *)
  Definition min2 (v1 v2 : T) : T := if ltb v1 v2 then v1 else v2.
  Definition min3 (v1 v2 v3 : T) : T := min2 v1 (min2 v2 v3).
  Definition max2 (v1 v2 : T) : T := if ltb v1 v2 then v2 else v1.
  Definition max3 (v1 v2 v3 : T) : T := max2 v1 (max2 v2 v3).
  (** math.h 55-58; the new content of value *)
  Definition set_if_smaller (value other : T) : T := if ltb other value then other else value.
  Definition set_if_bigger (value other : T) : T := if ltb value other then other else value.
  (** math.h 86-92 *)
  Definition clamped (v lower upper : T) : T := if ltb v lower then lower else if ltb upper v then upper else v.
  (** math.h 138 *)
  Definition is_between (v mn mx : T) : bool := leb mn v && leb v mx.
  (** bounds.h 20, 36-40 *)
  Record bounds := Bounds { b_lower : T; b_upper : T }.
  Definition is_within (b : bounds) (v : T) : bool := leb (b_lower b) v && leb v (b_upper b).
  Definition bounds_extend (b : bounds) (v : T) : bounds := Bounds (min2 (b_lower b) v) (max2 (b_upper b) v).
  Definition bounds_extend_bounds (b c : bounds) : bounds := Bounds (min2 (b_lower b) (b_lower c)) (max2 (b_upper b) (b_upper c)).
  Definition bounds_clamped (b : bounds) (v : T) : T := clamped v (b_lower b) (b_upper b).
  (** bounded.h 10-19 with lower bound [l] and upper bound [u]: set, and with it the constructor and both assignments, ends without a return statement *)
  Definition bounded_set (l u : T) (value : T) : outcome T := if ltb value l || ltb u value then Throw else UB.
End Order.

(** ** integers; no overflow unless said *)
(** math.h 64 *)
Definition is_power_of_two (v : Z) : bool := negb (v =? 0)%Z && (Z.land v (v - 1) =? 0)%Z.
(** math.h 67-68 *)
Definition is_even (v : Z) : bool := (Z.land v 1 =? 0)%Z.
Definition is_odd (v : Z) : bool := (Z.land v 1 =? 1)%Z.
(** math.h 74-75; UB when [fuel] rounds do not suffice *)
Fixpoint count_digits_loop (fuel : nat) (value base : N) (digits : nat) : outcome nat :=
  if (base <=? value)%N then match fuel with 0 => UB | S fuel => count_digits_loop fuel (value / 10)%N base (S digits) end else Ok digits.
Definition count_digits (value base : N) : outcome nat := count_digits_loop (N.to_nat (N.size value) + 1) value base 1.
(** math.h 162-165; % rounds towards zero *)
Fixpoint gcd_loop (fuel : nat) (p q : Z) : outcome Z :=
  if (q =? 0)%Z then Ok p else match fuel with 0 => UB | S fuel => gcd_loop fuel q (Z.rem p q) end.
Definition greatest_common_divisor (p q : Z) : outcome Z := gcd_loop (S (Z.to_nat (Z.abs q))) p q.
(** math.h 43 for a signed type with [bits] bits, and for an unsigned one *)
Definition in_signed (bits : Z) (z : Z) : bool := (- 2 ^ (bits - 1) <=? z)%Z && (z <? 2 ^ (bits - 1))%Z.
Definition midpoint_signed (bits : Z) (v1 v2 : Z) : outcome Z :=
  let d := (v2 - v1)%Z in if in_signed bits d then let r := (v1 + Z.quot d 2)%Z in if in_signed bits r then Ok r else UB else UB.
Definition midpoint_unsigned (bits : Z) (v1 v2 : Z) : Z := ((v1 + ((v2 - v1) mod 2 ^ bits) / 2) mod 2 ^ bits)%Z.
(** math.h 17, 46-52 for integers *)
Definition sign_Z (v : Z) : Z := if (0 <=? v)%Z then 1%Z else (-1)%Z.
Definition signum_Z (v : Z) : Z := ((if (0 <? v)%Z then 1 else 0) - (if (v <? 0)%Z then 1 else 0))%Z.
Definition same_sign_Z (v1 v2 : Z) : bool := (signum_Z v1 =? signum_Z v2)%Z.
(** math.h 17 for a signed type *)
Definition abs_signed (bits : Z) (v : Z) : outcome Z := if (v <? 0)%Z then (if in_signed bits (- v) then Ok (- v)%Z else UB) else Ok v.

(** ** floating point numbers, as real numbers *)
Local Open Scope R_scope.
Definition Rltb (a b : R) : bool := if Rlt_dec a b then true else false.
Definition Rleb (a b : R) : bool := if Rle_dec a b then true else false.
Definition Reqb (a b : R) : bool := if Req_EM_T a b then true else false.
(** math.h 17 *)
Definition abs_R (v : R) : R := if Rlt_dec v 0 then - v else v.
(** math.h 35-40 *)
Fixpoint power_nat (e : nat) (base : R) : R := match e with 0%nat => 1 | 1%nat => base | S e => base * power_nat e base end.
Definition power (e : Z) (base : R) : R := if (e <? 0)%Z then 1 / power_nat (Z.to_nat (- e)) base else power_nat (Z.to_nat e) base.
(** math.h 43 *)
Definition midpoint_R (v1 v2 : R) : R := v1 + (v2 - v1) / 2.
(** bounds.h 21-22, 25, 28-34, 45 *)
Definition bounds_length (b : bounds) : R := b_upper b - b_lower b.
Definition bounds_center (b : bounds) : R := 0.5 * (b_lower b + b_upper b).
Definition get_violation (b : bounds) (v : R) : R := if Rlt_dec v (b_lower b) then v - b_lower b else if Rlt_dec (b_upper b) v then v - b_upper b else 0.
Definition bounds_check (b : bounds) (v : R) : bool * R := if Rlt_dec v (b_lower b) then (false, v - b_lower b) else if Rlt_dec (b_upper b) v then (false, v - b_upper b) else (true, 0).
Definition bounds_neg (b : bounds) : bounds := Bounds (- b_upper b) (- b_lower b).
(** math.h 96 *)
Definition limit_transform (x limit : R) : R := limit - limit * limit / (x + limit).
(** math.h 99-108 *)
Definition soft_clamped (v mn mx boundary : R) : R :=
  let r := boundary * (mx - mn) in
  if Rlt_dec (mx - r) v then mx - r + limit_transform (v - mx + r) r
  else if Rlt_dec v (mn + r) then mn + r - limit_transform (mn + r - v) r
  else v.
(** math.h 111-117 *)
Definition smooth_clamped (v mn mx lb ub : R) : R :=
  if Rlt_dec v lb then (lb - mn) * tanh ((v - lb) / (lb - mn)) + lb
  else if Rlt_dec ub v then (mx - ub) * tanh ((v - ub) / (mx - ub)) + ub
  else v.
(** floor, and fmod: x minus the multiple of y that x / y gives when rounded towards zero *)
Definition floor_R (x : R) : R := IZR (Int_part x).
Definition trunc_R (x : R) : R := if Rlt_dec x 0 then - floor_R (- x) else floor_R x.
Definition fmod (x y : R) : R := x - y * trunc_R (x / y).
(** math.h 128-135 *)
Definition wrapped (v lower upper : R) : R :=
  if Rle_dec 0 (v - lower) then fmod (v - lower) (upper - lower) + lower else fmod (v - lower) (upper - lower) + upper.
(** math.h 141-143 *)
Definition square_wave (v : R) : R := if Rlt_dec (fmod v 2) 1 then 1 else 0.
(** math.h 146-148 *)
Definition triangle_wave (v : R) : R := 2 * abs_R (0.5 * v - floor_R (0.5 * v + 0.5)).
(** math.h 151-153 *)
Definition pos_mod (x y : R) : R := fmod x y + (if Rlt_dec x 0 then 1 else 0) * y.
(** math.h 156-159 *)
Definition triangle_wave_between (v l u : R) : R := let a := u - l in abs_R (pos_mod (v - u) (2 * a) - a) + l.
(** compare.h 10-27 *)
Definition equal_R (v1 v2 e : R) : bool := Rleb (abs_R (v1 - v2)) (abs_R v1 * e).
Definition less_than_or_equal (v1 v2 e : R) : bool := Rltb v1 v2 || equal_R v1 v2 e.
Definition less_than_not_equal (v1 v2 e : R) : bool := Rltb v1 v2 && negb (equal_R v1 v2 e).
Definition greater_than_or_equal (v1 v2 e : R) : bool := Rltb v2 v1 || equal_R v1 v2 e.
Definition greater_than_not_equal (v1 v2 e : R) : bool := Rltb v2 v1 && negb (equal_R v1 v2 e).

(** ** doubles: IEEE 754 binary64 with rounding to nearest even *)
Definition d_add : double -> double -> double := SFadd 53 1024.
Definition d_sub : double -> double -> double := SFsub 53 1024.
Definition d_mul : double -> double -> double := SFmul 53 1024.
Definition d_div : double -> double -> double := SFdiv 53 1024.
