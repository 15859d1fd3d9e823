(** C40, C41, C42, C79, C80: clamp and bounds, integer helpers, periodic functions, approximate comparison. *)
From Coq Require Import List Arith Bool NArith ZArith Reals Lra Lia.
From Coq Require Import Floats.SpecFloat.
From Verif Require Import Base NumSpec NumModel NumProofs.
Import ListNotations.

(** C40: clamped gives the value of [lo, hi] nearest to v (it lies between v and every other value of [lo, hi]), is idempotent and monotone *)
Theorem C40_clamp : forall (T : Type) (ok : T -> Prop) (ltb leb : T -> T -> bool), ordered ok ltb leb -> forall v lo hi, ok v -> ok lo -> ok hi -> leb lo hi = true -> let r := clamped ltb v lo hi in
  leb lo r = true /\ leb r hi = true /\ (leb lo v = true -> leb v hi = true -> r = v) /\ (forall w, ok w -> leb lo w = true -> leb w hi = true -> between leb v r w) /\ clamped ltb r lo hi = r /\
  (forall w, ok w -> leb v w = true -> leb r (clamped ltb w lo hi) = true).
Proof. exact (@clamp_assembled). Qed.
Print Assumptions C40_clamp.
Example C40_clamp_case : ordered (fun _ => True) Z.ltb Z.leb /\ clamped Z.ltb 9%Z 2%Z 5%Z = 5%Z /\ clamped Z.ltb 1%Z 2%Z 5%Z = 2%Z /\ clamped Z.ltb 3%Z 2%Z 5%Z = 3%Z.
Proof. split; [exact ints_ordered|repeat split; reflexivity]. Qed.

(** the order that this holds for: doubles other than NaN, with their infinities and zeros *)
Theorem C40_double_order : ordered not_nan SFltb SFleb.
Proof. exact doubles_ordered. Qed.
Print Assumptions C40_double_order.
Example C40_double_order_case : let one := S754_finite false 4503599627370496 (-52) in let inf := S754_infinity false in
  not_nan one /\ not_nan inf /\ clamped SFltb inf (S754_zero true) one = one /\ clamped SFltb (S754_infinity true) (S754_zero true) one = S754_zero true.
Proof. cbv zeta. repeat split; try discriminate; reflexivity. Qed.

(** NaN passes through clamped and is never within bounds *)
Theorem C40_nan_refuted : forall lo hi, clamped SFltb S754_nan lo hi = S754_nan /\ is_within SFleb (Bounds lo hi) S754_nan = false.
Proof. intros lo hi. split; [destruct lo; destruct hi; reflexivity|destruct lo; reflexivity]. Qed.
Print Assumptions C40_nan_refuted.

Theorem C40_within : forall (T : Type) (ok : T -> Prop) (ltb leb : T -> T -> bool), ordered ok ltb leb -> forall b v, ok (b_lower b) -> ok (b_upper b) -> ok v -> leb (b_lower b) (b_upper b) = true ->
  (is_within leb b v = true <-> leb (b_lower b) v = true /\ leb v (b_upper b) = true) /\ (is_within leb b v = true <-> bounds_clamped ltb b v = v) /\ is_between leb v (b_lower b) (b_upper b) = is_within leb b v /\
  is_within leb b (bounds_clamped ltb b v) = true.
Proof. exact (@within_assembled). Qed.
Print Assumptions C40_within.
Example C40_within_case : is_within Z.leb (Bounds 2 5)%Z 5%Z = true /\ is_within Z.leb (Bounds 2 5)%Z 6%Z = false /\ bounds_clamped Z.ltb (Bounds 2 5)%Z 6%Z = 5%Z.
Proof. repeat split; reflexivity. Qed.

(** min, max and conditional assignment *)
Theorem C40_min_max : forall (T : Type) (ok : T -> Prop) (ltb leb : T -> T -> bool), ordered ok ltb leb -> forall a b c, ok a -> ok b -> ok c ->
  (leb (min2 ltb a b) a = true /\ leb (min2 ltb a b) b = true /\ (min2 ltb a b = a \/ min2 ltb a b = b)) /\
  (leb a (max2 ltb a b) = true /\ leb b (max2 ltb a b) = true /\ (max2 ltb a b = a \/ max2 ltb a b = b)) /\
  ((forall x, In x [a; b; c] -> leb (min3 ltb a b c) x = true) /\ In (min3 ltb a b c) [a; b; c]) /\
  ((forall x, In x [a; b; c] -> leb x (max3 ltb a b c) = true) /\ In (max3 ltb a b c) [a; b; c]) /\
  (leb (set_if_smaller ltb a b) a = true /\ leb (set_if_smaller ltb a b) b = true /\ In (set_if_smaller ltb a b) [a; b]) /\
  (leb a (set_if_bigger ltb a b) = true /\ leb b (set_if_bigger ltb a b) = true /\ In (set_if_bigger ltb a b) [a; b]).
Proof. exact (@min_max_assembled). Qed.
Print Assumptions C40_min_max.
Example C40_min_max_case : min3 Z.ltb 4%Z 2%Z 3%Z = 2%Z /\ max3 Z.ltb 1%Z 2%Z 3%Z = 3%Z.
Proof. split; reflexivity. Qed.

(** extend gives the smallest bounds that contain the old ones and the value *)
Theorem C40_extend : forall (T : Type) (ok : T -> Prop) (ltb leb : T -> T -> bool), ordered ok ltb leb -> forall b v, ok (b_lower b) -> ok (b_upper b) -> ok v -> let b' := bounds_extend ltb b v in
  is_within leb b' v = true /\ (forall w, ok w -> is_within leb b w = true -> is_within leb b' w = true) /\
  (forall c, ok (b_lower c) -> ok (b_upper c) -> is_within leb c v = true -> is_within leb c (b_lower b) = true -> is_within leb c (b_upper b) = true ->
     is_within leb c (b_lower b') = true /\ is_within leb c (b_upper b') = true).
Proof. exact (@extend_assembled). Qed.
Print Assumptions C40_extend.
Example C40_extend_case : bounds_extend Z.ltb (Bounds 2 5)%Z 7%Z = Bounds 2%Z 7%Z /\ bounds_extend Z.ltb (Bounds 2 5)%Z 0%Z = Bounds 0%Z 5%Z.
Proof. split; reflexivity. Qed.

Theorem C40_extend_bounds : forall (T : Type) (ok : T -> Prop) (ltb leb : T -> T -> bool), ordered ok ltb leb -> forall b c, ok (b_lower b) -> ok (b_upper b) -> ok (b_lower c) -> ok (b_upper c) ->
  let b' := bounds_extend_bounds ltb b c in
  (forall w, ok w -> is_within leb b w = true \/ is_within leb c w = true -> is_within leb b' w = true) /\
  (forall d, is_within leb d (b_lower b) = true -> is_within leb d (b_upper b) = true -> is_within leb d (b_lower c) = true -> is_within leb d (b_upper c) = true ->
     is_within leb d (b_lower b') = true /\ is_within leb d (b_upper b') = true).
Proof. exact (@extend_bounds_assembled). Qed.
Print Assumptions C40_extend_bounds.
Example C40_extend_bounds_case : bounds_extend_bounds Z.ltb (Bounds 2 5)%Z (Bounds 4 9)%Z = Bounds 2%Z 9%Z.
Proof. reflexivity. Qed.

Local Open Scope R_scope.
(** the violation is zero exactly inside, negative below, positive above, and what clamping removes *)
Theorem C40_violation : forall (b : @bounds R) v, b_lower b <= b_upper b ->
  (get_violation b v = 0 <-> is_within Rleb b v = true) /\ (get_violation b v < 0 <-> v < b_lower b) /\ (0 < get_violation b v <-> b_upper b < v) /\
  v - get_violation b v = bounds_clamped Rltb b v /\ bounds_check b v = (is_within Rleb b v, get_violation b v).
Proof. exact violation_assembled. Qed.
Print Assumptions C40_violation.
Example C40_violation_case : b_lower (Bounds 1 2) <= b_upper (Bounds 1 2) /\ get_violation (Bounds 1 2) 5 = 3 /\ get_violation (Bounds 1 2) 0 = -1.
Proof. unfold get_violation. cbn [b_lower b_upper]. split; [lra|]. split; repeat (destruct (Rlt_dec _ _)); lra. Qed.

Theorem C40_negated : forall (b : @bounds R) v, is_within Rleb (bounds_neg b) (- v) = is_within Rleb b v /\ bounds_neg (bounds_neg b) = b /\ bounds_length (bounds_neg b) = bounds_length b /\
  (b_lower b <= b_upper b -> is_within Rleb b (bounds_center b) = true /\ bounds_center b - b_lower b = b_upper b - bounds_center b).
Proof. exact bounds_neg_assembled. Qed.
Print Assumptions C40_negated.
Example C40_negated_case : bounds_neg (Bounds 1 2) = Bounds (-2) (-1) /\ bounds_center (Bounds 1 2) = 1.5.
Proof. unfold bounds_neg, bounds_center. cbn [b_lower b_upper]. split; [f_equal; lra|lra]. Qed.

(** soft_clamp stays strictly inside, changes nothing away from the boundary and is strictly increasing *)
Theorem C40_soft_clamp : forall mn mx bd, mn < mx -> 0 < bd <= 1 / 2 ->
  (forall v, mn < soft_clamped v mn mx bd < mx) /\ (forall v, mn + bd * (mx - mn) <= v <= mx - bd * (mx - mn) -> soft_clamped v mn mx bd = v) /\
  (forall v w, v < w -> soft_clamped v mn mx bd < soft_clamped w mn mx bd).
Proof. exact soft_clamp_assembled. Qed.
Print Assumptions C40_soft_clamp.
Example C40_soft_clamp_case : 0 < 1 / 4 <= 1 / 2 /\ soft_clamped 4 0 4 (1 / 4) = 3.5 /\ soft_clamped 2 0 4 (1 / 4) = 2.
Proof. unfold soft_clamped, limit_transform. split; [lra|]. split; repeat (destruct (Rlt_dec _ _)); lra. Qed.

Theorem C40_smooth_clamp : forall mn mx lb ub, mn < lb <= ub -> ub < mx ->
  (forall v, mn < smooth_clamped v mn mx lb ub < mx) /\ (forall v, lb <= v <= ub -> smooth_clamped v mn mx lb ub = v) /\ (forall v w, v < w -> smooth_clamped v mn mx lb ub < smooth_clamped w mn mx lb ub).
Proof. exact smooth_clamp_assembled. Qed.
Print Assumptions C40_smooth_clamp.
Example C40_smooth_clamp_case : smooth_clamped 0.5 0 1 0.25 0.75 = 0.5 /\ smooth_clamped 2 0 1 0.25 0.75 = 0.25 * tanh 5 + 0.75.
Proof. unfold smooth_clamped. split; repeat (destruct (Rlt_dec _ _)); try lra. replace ((2 - 0.75) / (1 - 0.75)) with 5 by lra. lra. Qed.
Close Scope R_scope.

(** C41: gcd; for non-negative arguments the non-negative one *)
Theorem C41_gcd : forall p q, exists r, greatest_common_divisor p q = Ok r /\ (r | p)%Z /\ (r | q)%Z /\ (forall d, (d | p)%Z -> (d | q)%Z -> (d | r)%Z) /\ (0 <= p -> 0 <= q -> r = Z.gcd p q)%Z.
Proof. exact gcd_assembled. Qed.
Print Assumptions C41_gcd.
Example C41_gcd_case : greatest_common_divisor 84 36 = Ok 12%Z /\ greatest_common_divisor 0 5 = Ok 5%Z.
Proof. split; reflexivity. Qed.

(** of negative numbers the result can be the negated greatest common divisor *)
Theorem C41_gcd_negative_refuted : exists p q r, greatest_common_divisor p q = Ok r /\ (r < 0)%Z /\ Z.gcd p q = (- r)%Z.
Proof. exists (-4)%Z, (-6)%Z, (-2)%Z. repeat split; reflexivity. Qed.
Print Assumptions C41_gcd_negative_refuted.

Theorem C41_power_of_two : forall v, is_power_of_two v = true <-> exists k : nat, v = (2 ^ Z.of_nat k)%Z.
Proof. exact power_of_two_assembled. Qed.
Print Assumptions C41_power_of_two.
Example C41_power_of_two_case : is_power_of_two 64 = true /\ is_power_of_two 0 = false /\ is_power_of_two 96 = false.
Proof. repeat split; reflexivity. Qed.

Theorem C41_parity : forall v, (is_even v = true <-> Z.Even v) /\ (is_odd v = true <-> Z.Odd v).
Proof. exact parity_assembled. Qed.
Print Assumptions C41_parity.
Example C41_parity_case : is_even (-4) = true /\ is_odd (-3) = true /\ is_odd 4 = false.
Proof. repeat split; reflexivity. Qed.

Theorem C41_power : forall e b, (0 <= e)%Z \/ b <> 0%R -> power e b = powerRZ b e.
Proof. exact power_assembled. Qed.
Print Assumptions C41_power.
Example C41_power_case : power 3 2%R = 8%R /\ power (-1) 2%R = (1 / 2)%R.
Proof. unfold power. change (Z.to_nat 3) with 3. change (Z.to_nat (- -1)) with 1. change (3 <? 0)%Z with false. change (-1 <? 0)%Z with true. cbn [power_nat]. split; lra. Qed.

(** count_digits in base ten *)
Theorem C41_count_digits : forall v, exists d, count_digits v 10 = Ok d /\ digits_in 10 v d.
Proof. exact count_digits_assembled. Qed.
Print Assumptions C41_count_digits.
Example C41_count_digits_case : count_digits 1000 10 = Ok 4 /\ count_digits 0 10 = Ok 1 /\ digits_in 10 1000 4.
Proof. split; [reflexivity|]. split; [reflexivity|]. split; [lia|]. split; [reflexivity|]. right. discriminate. Qed.

(** in other bases the count can be wrong in both directions; in base 0 it never ends *)
Theorem C41_count_digits_refuted : count_digits 4 2 = Ok 2 /\ digits_in 2 4 3 /\ count_digits 4095 16 = Ok 4 /\ digits_in 16 4095 3 /\ forall v, count_digits v 0 = UB.
Proof.
  split; [reflexivity|]. split; [split; [lia|]; split; [reflexivity|right; discriminate]|]. split; [reflexivity|]. split; [split; [lia|]; split; [reflexivity|right; discriminate]|].
  intros v. apply count_digits_zero_base.
Qed.
Print Assumptions C41_count_digits_refuted.

(** midpoint of signed integers, when the difference is representable: half the sum, rounded towards the first *)
Theorem C41_midpoint : forall bits a b, (1 <= bits)%Z -> in_signed bits a = true -> in_signed bits b = true -> in_signed bits (b - a) = true ->
  exists m, midpoint_signed bits a b = Ok m /\ (2 * m = a + b \/ 2 * m = a + b - Z.sgn (b - a))%Z.
Proof. exact midpoint_assembled. Qed.
Print Assumptions C41_midpoint.
Example C41_midpoint_case : midpoint_signed 32 2147483000 2147483647 = Ok 2147483323%Z /\ midpoint_signed 32 5 2 = Ok 4%Z.
Proof. split; reflexivity. Qed.

(** it overflows for far apart signed numbers, and is outside of [b, a] for unsigned a > b *)
Theorem C41_midpoint_refuted : midpoint_signed 32 (- 2 ^ 31) (2 ^ 31 - 1) = UB /\ midpoint_unsigned 32 5 3 = 2147483652%Z.
Proof. split; reflexivity. Qed.
Print Assumptions C41_midpoint_refuted.

Theorem C41_sign : forall v w, (sign_Z v = if (v <? 0)%Z then (-1)%Z else 1%Z) /\ signum_Z v = Z.sgn v /\ (same_sign_Z v w = true <-> (0 < v /\ 0 < w \/ v < 0 /\ w < 0 \/ v = 0 /\ w = 0)%Z) /\
  (forall bits, in_signed bits v = true -> v <> (- 2 ^ (bits - 1))%Z -> abs_signed bits v = Ok (Z.abs v)).
Proof. exact sign_assembled. Qed.
Print Assumptions C41_sign.
Example C41_sign_case : signum_Z (-7) = (-1)%Z /\ same_sign_Z 3 0 = false /\ abs_signed 32 (-5) = Ok 5%Z /\ abs_signed 32 (- 2 ^ 31) = UB.
Proof. repeat split; reflexivity. Qed.

(** C42: wrap moves by a multiple of the width into [lo, hi]; below hi unless v is below lo by a multiple of the width *)
Local Open Scope R_scope.
Theorem C42_wrap_partial : forall v lo hi, lo < hi -> same_phase (hi - lo) (wrapped v lo hi) v /\ lo <= wrapped v lo hi <= hi /\ (wrapped v lo hi < hi <-> lo <= v \/ ~ same_phase (hi - lo) v lo).
Proof. exact wrap_assembled. Qed.
Print Assumptions C42_wrap_partial.
Lemma trunc_one : trunc_R 1 = 1 /\ trunc_R (-1) = -1 /\ trunc_R (7 / 4) = 1 /\ trunc_R (- (1 / 4)) = 0.
Proof.
  unfold trunc_R. split; [destruct (Rlt_dec 1 0); [lra|]; apply (floor_unique 1 1); lra|]. split; [|split].
  - destruct (Rlt_dec (-1) 0); [|lra]. rewrite (floor_unique (- -1) 1); lra.
  - destruct (Rlt_dec (7 / 4) 0); [lra|]. apply (floor_unique (7 / 4) 1); lra.
  - destruct (Rlt_dec (- (1 / 4)) 0); [|lra]. rewrite (floor_unique (- - (1 / 4)) 0); lra.
Qed.
Example C42_wrap_partial_case : wrapped 8 1 5 = 4 /\ wrapped 0 1 5 = 4.
Proof.
  destruct trunc_one as (T1 & T2 & T3 & T4). unfold wrapped, fmod. split; destruct (Rle_dec 0 _); try lra.
  - replace ((8 - 1) / (5 - 1)) with (7 / 4) by lra. rewrite T3. lra.
  - replace ((0 - 1) / (5 - 1)) with (- (1 / 4)) by lra. rewrite T4. lra.
Qed.

(** at such a value the result is hi *)
Theorem C42_wrap_refuted : exists v lo hi, lo < hi /\ wrapped v lo hi = hi.
Proof.
  exists (-1), 0, 1. split; [lra|]. destruct (wrap_assembled (-1) 0 1 ltac:(lra)) as (_ & B & H). destruct (Rlt_le_dec (wrapped (-1) 0 1) 1) as [X|X]; [|lra].
  exfalso. apply H in X. destruct X as [X|X]; [lra|]. apply X. exists (-1)%Z. lra.
Qed.
Print Assumptions C42_wrap_refuted.

Theorem C42_pos_mod_partial : forall x y, 0 < y -> same_phase y (pos_mod x y) x /\ 0 <= pos_mod x y <= y /\ (pos_mod x y < y <-> 0 <= x \/ ~ same_phase y x 0).
Proof. exact pos_mod_assembled. Qed.
Print Assumptions C42_pos_mod_partial.
Example C42_pos_mod_partial_case : pos_mod (- (1 / 4)) 1 = 3 / 4 /\ pos_mod (7 / 4) 1 = 3 / 4.
Proof.
  destruct trunc_one as (T1 & T2 & T3 & T4). unfold pos_mod, fmod. rewrite !Rdiv_1, T3, T4 || (replace (- (1 / 4) / 1) with (- (1 / 4)) by lra; replace (7 / 4 / 1) with (7 / 4) by lra; rewrite T3, T4).
  split; destruct (Rlt_dec _ 0); lra.
Qed.

Theorem C42_pos_mod_refuted : exists x y, 0 < y /\ pos_mod x y = y.
Proof.
  exists (-1), 1. split; [lra|]. destruct (pos_mod_assembled (-1) 1 ltac:(lra)) as (_ & B & H). destruct (Rlt_le_dec (pos_mod (-1) 1) 1) as [X|X]; [|lra].
  exfalso. apply H in X. destruct X as [X|X]; [lra|]. apply X. exists (-1)%Z. lra.
Qed.
Print Assumptions C42_pos_mod_refuted.

(** the square wave is 1 in the first half of each period and 0 in the second, for non-negative v; it is 1 for all negative v *)
Theorem C42_square_wave_partial : forall v, (0 <= v -> exists k : Z, 2 * IZR k <= v < 2 * IZR k + 2 /\ (v < 2 * IZR k + 1 -> square_wave v = 1) /\ (2 * IZR k + 1 <= v -> square_wave v = 0)) /\ (v < 0 -> square_wave v = 1).
Proof. exact square_wave_assembled. Qed.
Print Assumptions C42_square_wave_partial.
Example C42_square_wave_partial_case : square_wave 3.5 = 0 /\ square_wave 0.5 = 1.
Proof.
  unfold square_wave, fmod, trunc_R. split.
  - destruct (Rlt_dec (3.5 / 2) 0); [lra|]. rewrite (floor_unique (3.5 / 2) 1) by lra. destruct (Rlt_dec _ 1); lra.
  - destruct (Rlt_dec (0.5 / 2) 0); [lra|]. rewrite (floor_unique (0.5 / 2) 0) by lra. destruct (Rlt_dec _ 1); lra.
Qed.

(** so it is not periodic *)
Theorem C42_square_wave_refuted : exists v, square_wave (v + 2) <> square_wave v.
Proof.
  exists (-0.5). destruct (square_wave_assembled (-0.5)) as [_ N]. rewrite N by lra. replace (-0.5 + 2) with 1.5 by lra. destruct (square_wave_assembled 1.5) as [P _]. destruct (P ltac:(lra)) as (k & B & _ & Z).
  assert (K : (k = 0)%Z). { assert (A : (-1 < k < 1)%Z) by (split; apply lt_IZR; lra). lia. } subst k. rewrite Z by lra. lra.
Qed.
Print Assumptions C42_square_wave_refuted.

(** the triangle wave is the distance to the nearest even number *)
Theorem C42_triangle_wave : forall v, exists k : Z, Rabs (v - 2 * IZR k) <= 1 /\ triangle_wave v = Rabs (v - 2 * IZR k).
Proof. exact triangle_wave_assembled. Qed.
Print Assumptions C42_triangle_wave.
Example C42_triangle_wave_case : triangle_wave (-3.25) = 0.75.
Proof. unfold triangle_wave. rewrite (floor_unique _ (-2)) by lra. rewrite abs_R_Rabs, Rabs_right by lra. lra. Qed.

(** the one between l and u is l plus the distance to the nearest l + 2 (u - l) k *)
Theorem C42_triangle_between : forall v l u, l < u -> exists k : Z, Rabs (v - l - 2 * (u - l) * IZR k) <= u - l /\ triangle_wave_between v l u = l + Rabs (v - l - 2 * (u - l) * IZR k).
Proof. exact triangle_between_assembled. Qed.
Print Assumptions C42_triangle_between.
Example C42_triangle_between_case : triangle_wave_between 1 1 3 = 1.
Proof.
  destruct (C42_triangle_between 1 1 3 ltac:(lra)) as (k & B & ->). assert (K : (-1 < k < 1)%Z). { unfold Rabs in B. destruct (Rcase_abs _); split; apply lt_IZR; lra. }
  replace k with 0%Z by lia. replace (1 - 1 - 2 * (3 - 1) * 0) with 0 by lra. rewrite Rabs_R0. lra.
Qed.

(** C79: approximate comparison *)
Theorem C79_equal : forall v1 v2 e, 0 <= e < 1 ->
  equal_R v1 v1 e = true /\ (equal_R v1 v2 e = true <-> Rabs (v1 - v2) <= Rabs v1 * e) /\ (equal_R v1 v2 e = true -> 0 < v1 /\ 0 < v2 \/ v1 < 0 /\ v2 < 0 \/ v1 = 0 /\ v2 = 0) /\
  greater_than_not_equal v1 v2 e = negb (less_than_or_equal v1 v2 e) /\ less_than_not_equal v1 v2 e = negb (greater_than_or_equal v1 v2 e).
Proof. exact equal_assembled. Qed.
Print Assumptions C79_equal.
Example C79_equal_case : equal_R 100 100.5 0.01 = true /\ equal_R 0 0.001 0.5 = false.
Proof.
  split; [apply C79_equal; [lra|]; unfold Rabs; repeat (destruct (Rcase_abs _)); lra|].
  destruct (equal_R 0 0.001 0.5) eqn:E; [|reflexivity]. apply C79_equal in E; [|lra]. unfold Rabs in E. repeat (destruct (Rcase_abs _)); lra.
Qed.

(** equal is neither symmetric nor transitive *)
Theorem C79_symmetric_refuted : exists a b c e, 0 <= e < 1 /\ equal_R a b e = true /\ equal_R b a e = false /\ equal_R c a e = true /\ equal_R c b e = false.
Proof.
  assert (I : forall a b, equal_R a b 0.1 = true <-> Rabs (a - b) <= Rabs a * 0.1) by (intros a b; apply C79_equal; lra).
  assert (F : forall a b, equal_R a b 0.1 = false <-> ~ Rabs (a - b) <= Rabs a * 0.1) by (intros a b; rewrite <- I; destruct (equal_R a b 0.1); split; congruence).
  exists 100, 90, 105, 0.1. split; [lra|]. rewrite !I, !F. repeat split; unfold Rabs; repeat (destruct (Rcase_abs _)); lra.
Qed.
Print Assumptions C79_symmetric_refuted.
Close Scope R_scope.

(** C80: bounded< T, L, U > rejects what is outside, but has no defined behaviour for what is inside *)
Theorem C80_bounded_refuted : forall (T : Type) (ltb : T -> T -> bool) l u v, (bounded_set ltb l u v = Throw <-> ltb v l = true \/ ltb u v = true) /\ (bounded_set ltb l u v <> Throw -> bounded_set ltb l u v = UB).
Proof. intros T ltb l u v. unfold bounded_set. destruct (ltb v l), (ltb u v); cbn; split; try split; intros; try tauto; try discriminate; intuition discriminate. Qed.
Print Assumptions C80_bounded_refuted.
(** C41: midpoint of real numbers *)
Theorem C41_midpoint_real : forall a b : R, (2 * midpoint_R a b = a + b)%R /\ (a <= b -> a <= midpoint_R a b <= b)%R.
Proof. intros a b. unfold midpoint_R. split; [field|intros; split; lra]. Qed.
Print Assumptions C41_midpoint_real.
