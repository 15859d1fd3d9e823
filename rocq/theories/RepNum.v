(** The figures of a profiler's report, in double precision. *)
From Coq Require Import Ascii String List Arith Bool ZArith Reals Lra Lia ZifyBool SpecFloat.
From Flocq Require Import Core IEEE754.BinarySingleNaN Relative.
From Verif Require Import Base Str StrModel CastSpec CastModel CastProofs FltSpec FltModel FltNum FltText FltProofs DurSpec DurModel DurProofs RepSpec RepModel.
Import ListNotations.
Local Open Scope R_scope.

(** [v] is [x], which is not negative, but for a relative error of [E] *)
Definition near (v : f64) (x E : R) : Prop := is_finite v = true /\ Bsign v = false /\ 0 <= x /\ exists e, Rabs e <= E /\ B2R v = x * (1 + e).
(** zero, or far from the limits of double precision *)
Definition usual (x : R) : Prop := x = 0 \/ bpow radix2 (-200) <= x <= bpow radix2 150.

Lemma near_print v x E : near v x E -> 0 < B2R v \/ v = B754_zero false.
Proof.
  intros (F & S & X & _). destruct v as [s|s| |s m e b]; try discriminate F; cbn [Bsign] in S; subst s; [right; reflexivity|left]. cbn [B2R cond_Zopp]. apply F2R_gt_0. cbn. lia.
Qed.
Lemma near_weaken v x E E' : E <= E' -> near v x E -> near v x E'.
Proof. intros L (F & S & X & e & He & B). split; [exact F|]. split; [exact S|]. split; [exact X|]. exists e. split; [lra|exact B]. Qed.
Lemma near_dist v x E : near v x E -> Rabs (B2R v - x) <= E * x.
Proof. intros (_ & _ & X & e & He & ->). replace (x * (1 + e) - x) with (e * x) by ring. rewrite Rabs_mult, (Rabs_pos_eq x X). apply Rmult_le_compat_r; assumption. Qed.

Lemma abs_bounds e E : Rabs e <= E -> - E <= e <= E.
Proof. intros H. unfold Rabs in H. destruct (Rcase_abs e); lra. Qed.
Lemma abs_le e E : - E <= e <= E -> Rabs e <= E.
Proof. intros H. unfold Rabs. destruct (Rcase_abs e); lra. Qed.
Lemma prod_bounds a b A B : 0 <= A < 1 -> 0 <= B < 1 -> - A <= a <= A -> - B <= b <= B -> (1 - A) * (1 - B) <= (1 + a) * (1 + b) <= (1 + A) * (1 + B).
Proof. intros HA HB Ha Hb. split; apply Rmult_le_compat; lra. Qed.
Lemma scaled_usual x f : usual x -> / 4 <= f <= 4 -> x * f = 0 \/ bpow radix2 (-500) <= Rabs (x * f).
Proof.
  intros [->|[L U]] F; [left; ring|right]. pose proof (bpow_gt_0 radix2 (-200)). rewrite Rabs_pos_eq by (apply Rmult_le_pos; lra). apply Rle_trans with (bpow radix2 (-200) * / 4); [|apply Rmult_le_compat; lra].
  change (/ 4) with (bpow radix2 (-2)). rewrite <- bpow_plus. apply bpow_le. lia.
Qed.
Lemma scaled_below x f : usual x -> / 4 <= f <= 4 -> Rabs (x * f) <= bpow radix2 200.
Proof.
  intros U F. assert (0 <= x <= bpow radix2 150) as [X0 X1]. { destruct U as [->|[L U]]; [split; [lra|apply bpow_ge_0]|]. pose proof (bpow_gt_0 radix2 (-200)). lra. }
  rewrite Rabs_pos_eq by (apply Rmult_le_pos; lra). apply Rle_trans with (bpow radix2 150 * bpow radix2 2); [apply Rmult_le_compat; try lra; change (bpow radix2 2) with 4; lra|]. rewrite <- bpow_plus. apply bpow_le. lia.
Qed.
(** rounding adds one unit *)
Lemma near_round v x f E G : 0 <= x -> usual x -> 0 <= E -> E <= / 4 -> 1 - E <= f <= 1 + E -> (1 + E) * (1 + u53) <= 1 + G -> is_finite v = true -> Bsign v = false -> B2R v = rnd (x * f) -> near v x G.
Proof.
  intros X U E0 E1 F HG Fv Sv B. split; [exact Fv|]. split; [exact Sv|]. split; [exact X|]. destruct (rnd_rel (x * f)) as (e & He & Er); [apply scaled_usual; [exact U|lra]|].
  fold u53 in He. assert (U0 : 0 < u53 < / 4) by (rewrite u53_eq; lra). apply abs_bounds in He. exists (f * (1 + e) - 1). split; [|rewrite B, Er; ring]. apply abs_le.
  assert (L : (1 - E) * (1 - u53) <= f * (1 + e)) by (apply Rmult_le_compat; lra). assert (H : f * (1 + e) <= (1 + E) * (1 + u53)) by (apply Rmult_le_compat; lra).
  split; [|lra]. assert (1 - (E + u53) <= (1 - E) * (1 - u53)) by (pose proof (Rmult_le_pos E u53 E0 ltac:(lra)); lra). pose proof (Rmult_le_pos E u53 E0 ltac:(lra)). lra.
Qed.
Lemma mul_sign a b : is_finite a = true -> is_finite b = true -> Rabs (B2R a * B2R b) <= bpow radix2 200 -> Bsign (f64_mul a b) = xorb (Bsign a) (Bsign b).
Proof.
  intros Fa Fb H. pose proof (Bmult_correct 53 1024 prec64 emax64 mode_NE a b) as G. cbn [round_mode] in G. fold (rnd (B2R a * B2R b)) in G. rewrite (small_finite _ H), Fa, Fb in G. destruct G as (_ & G2 & G3). apply G3.
  fold (f64_mul a b) in *. destruct (f64_mul a b); try reflexivity. discriminate G2.
Qed.
Lemma div_ok a b : is_finite a = true -> B2R b <> 0 -> Rabs (B2R a / B2R b) <= bpow radix2 200 ->
  B2R (f64_div a b) = rnd (B2R a / B2R b) /\ is_finite (f64_div a b) = true /\ Bsign (f64_div a b) = xorb (Bsign a) (Bsign b).
Proof.
  intros Fa Nb H. pose proof (Bdiv_correct 53 1024 prec64 emax64 mode_NE a b Nb) as G. cbn [round_mode] in G. fold (rnd (B2R a / B2R b)) in G. rewrite (small_finite _ H), Fa in G. destruct G as (G1 & G2 & G3). split; [exact G1|]. split; [exact G2|]. apply G3.
  fold (f64_div a b) in *. destruct (f64_div a b); try reflexivity. discriminate G2.
Qed.
Lemma near_mul v w x y E F G : near v x E -> near w y F -> usual (x * y) -> 0 <= E -> E <= / 10 -> 0 <= F -> F <= / 10 -> (1 + E) * (1 + F) * (1 + u53) <= 1 + G -> near (f64_mul v w) (x * y) G.
Proof.
  intros (Fv & Sv & X & e & He & Bv) (Fw & Sw & Y & f & Hf & Bw) U E0 E1 F0 F1 HG. apply abs_bounds in He, Hf. pose proof (prod_bounds e f E F ltac:(lra) ltac:(lra) He Hf) as P.
  set (H := (1 + E) * (1 + F) - 1). assert (H0 : 0 <= H <= / 4). { unfold H. assert ((1 + E) * (1 + F) <= (1 + / 10) * (1 + / 10)) by (apply Rmult_le_compat; lra). assert (1 * 1 <= (1 + E) * (1 + F)) by (apply Rmult_le_compat; lra). lra. }
  assert (Q : 1 - H <= (1 + e) * (1 + f) <= 1 + H). { unfold H. split; [|lra]. assert (1 - (E + F + E * F) <= (1 - E) * (1 - F)) by (pose proof (Rmult_le_pos E F E0 F0); lra). lra. }
  assert (EQ : B2R v * B2R w = x * y * ((1 + e) * (1 + f))) by (rewrite Bv, Bw; ring). assert (AB : Rabs (B2R v * B2R w) <= bpow radix2 200) by (rewrite EQ; apply scaled_below; [exact U|lra]).
  destruct (mul_ok v w Fv Fw AB) as [M1 M2]. apply (near_round _ (x * y) ((1 + e) * (1 + f)) H); [apply Rmult_le_pos; assumption|exact U|lra|lra|exact Q| |exact M2|rewrite (mul_sign v w Fv Fw AB), Sv, Sw; reflexivity|rewrite M1, EQ; reflexivity].
  unfold H. lra.
Qed.
Lemma near_div v w x y E F G : near v x E -> near w y F -> 0 < y -> usual (x / y) -> 0 <= E -> E <= / 20 -> 0 <= F -> F <= / 20 -> (1 + E) * (1 + 2 * F) * (1 + u53) <= 1 + G -> near (f64_div v w) (x / y) G.
Proof.
  intros (Fv & Sv & X & e & He & Bv) (Fw & Sw & _ & f & Hf & Bw) Y U E0 E1 F0 F1 HG. apply abs_bounds in He, Hf.
  assert (Nw : B2R w <> 0) by (rewrite Bw; apply Rgt_not_eq, Rmult_lt_0_compat; lra). set (g := / (1 + f) - 1).
  assert (Hg : - (2 * F) <= g <= 2 * F).
  { unfold g. split.
    - assert (1 - 2 * F <= / (1 + f)); [|lra]. apply Rmult_le_reg_r with (1 + f); [lra|]. rewrite Rinv_l by lra. assert ((1 - 2 * F) * (1 + f) <= (1 - 2 * F) * (1 + F)) by (apply Rmult_le_compat_l; lra). pose proof (Rmult_le_pos F F F0 F0). lra.
    - assert (/ (1 + f) <= 1 + 2 * F); [|lra]. apply Rmult_le_reg_r with (1 + f); [lra|]. rewrite Rinv_l by lra. assert ((1 + 2 * F) * (1 - F) <= (1 + 2 * F) * (1 + f)) by (apply Rmult_le_compat_l; lra). assert (2 * F * F <= F) by (pose proof (Rmult_le_pos F (/ 2 - F) F0 ltac:(lra)); lra). lra. }
  pose proof (prod_bounds e g E (2 * F) ltac:(lra) ltac:(lra) He Hg) as P.
  set (H := (1 + E) * (1 + 2 * F) - 1). assert (H0 : 0 <= H <= / 4). { unfold H. assert ((1 + E) * (1 + 2 * F) <= (1 + / 10) * (1 + / 10)) by (apply Rmult_le_compat; lra). assert (1 * 1 <= (1 + E) * (1 + 2 * F)) by (apply Rmult_le_compat; lra). lra. }
  assert (Q : 1 - H <= (1 + e) * (1 + g) <= 1 + H). { unfold H. split; [|lra]. assert (1 - (E + 2 * F + E * (2 * F)) <= (1 - E) * (1 - 2 * F)) by (pose proof (Rmult_le_pos E F E0 F0); lra). lra. }
  assert (EQ : B2R v / B2R w = x / y * ((1 + e) * (1 + g))) by (rewrite Bv, Bw; unfold g; field; lra). assert (AB : Rabs (B2R v / B2R w) <= bpow radix2 200) by (rewrite EQ; apply scaled_below; [exact U|lra]).
  destruct (div_ok v w Fv Nw AB) as (M1 & M2 & M3). apply (near_round _ (x / y) ((1 + e) * (1 + g)) H); [apply Rmult_le_pos; [exact X|left; apply Rinv_0_lt_compat, Y]|exact U|lra|lra|exact Q| |exact M2|rewrite M3, Sv, Sw; reflexivity|rewrite M1, EQ; reflexivity].
  unfold H. lra.
Qed.

(** * conversions and literals *)
Lemma near_int z : (0 <= z <= 2 ^ 63)%Z -> near (f64_of_Z z) (IZR z) u53.
Proof.
  intros H. destruct (of_Z_ok z ltac:(lia)) as [B F].
  assert (U : usual (IZR z)). { destruct (Z.eq_dec z 0) as [->|N]; [left; reflexivity|right]. split; [apply Rle_trans with (bpow radix2 0); [apply bpow_le; lia|change (bpow radix2 0) with 1; apply IZR_le; lia]|]. apply Rle_trans with (IZR (2 ^ 63)); [apply IZR_le; lia|]. change (IZR (2 ^ 63)) with (bpow radix2 63). apply bpow_le. lia. }
  assert (Z0 : 0 <= IZR z) by (apply IZR_le; lia).
  apply (near_round _ (IZR z) 1 0); [exact Z0|exact U|lra|lra|lra|lra|exact F| |rewrite B; f_equal; ring].
  pose proof (binary_normalize_correct 53 1024 prec64 emax64 mode_NE z 0 false) as G. cbv zeta in G. assert (E : F2R (Float radix2 z 0) = IZR z) by (unfold F2R; cbn; lra). rewrite E in G. cbn [round_mode] in G. fold (rnd (IZR z)) in G.
  rewrite small_finite in G by (rewrite <- (Rmult_1_r (IZR z)); apply scaled_below; [exact U|lra]). destruct G as (_ & _ & G). unfold f64_of_Z. rewrite G. destruct (Rcompare_spec (IZR z) 0) as [L|L|L]; [lra|reflexivity|reflexivity].
Qed.
Lemma literal_exact v q m e x : round_scaled f_double false v 10 q = S754_finite false m e -> valid_binary 53 1024 (S754_finite false m e) = true -> value (S754_finite false m e) = x -> near (literal v q) x 0.
Proof.
  intros E V X. unfold literal. rewrite E. destruct (sf_real _ V) as [A B]. split; [apply B; exact I|]. split.
  - pose proof (sf_ok _ V) as S. destruct (sf64 (S754_finite false m e)); cbn [B2SF] in S; try discriminate S. injection S as -> _ _. reflexivity.
  - split; [rewrite <- X, <- A; destruct (sf64 (S754_finite false m e)) as [s|s| |s m' e' b] eqn:Es; pose proof (sf_ok _ V) as S; rewrite Es in S; cbn [B2SF] in S; try discriminate S; injection S as -> -> ->; cbn [B2R cond_Zopp]; apply F2R_ge_0; cbn; lia|].
    exists 0. split; [rewrite Rabs_R0; lra|]. rewrite A, X. ring.
Qed.
Lemma near_100 : near (literal 100 0) 100 0.
Proof. apply (literal_exact 100 0 7036874417766400 (-46)); [vm_compute; reflexivity|vm_compute; reflexivity|]. unfold value. rewrite p2. cbn. lra. Qed.
Lemma near_e6 : near (literal 1 6) 1000000 0.
Proof. apply (literal_exact 1 6 8589934592000000 (-33)); [vm_compute; reflexivity|vm_compute; reflexivity|]. unfold value. rewrite p2. cbn. lra. Qed.
Lemma near_999999 : near (literal 999999 0) 999999 0.
Proof. apply (literal_exact 999999 0 8589926002065408 (-33)); [vm_compute; reflexivity|vm_compute; reflexivity|]. unfold value. rewrite p2. cbn. lra. Qed.
Lemma near_99 : near (literal 99 0) 99 0.
Proof. apply (literal_exact 99 0 6966505673588736 (-46)); [vm_compute; reflexivity|vm_compute; reflexivity|]. unfold value. rewrite p2. cbn. lra. Qed.
Lemma near_1 : near (literal 1 0) 1 0.
Proof. apply (literal_exact 1 0 4503599627370496 (-52)); [vm_compute; reflexivity|vm_compute; reflexivity|]. unfold value. rewrite p2. cbn. lra. Qed.
Lemma near_5 : near (literal 5 0) 5 0.
Proof. apply (literal_exact 5 0 5629499534213120 (-50)); [vm_compute; reflexivity|vm_compute; reflexivity|]. unfold value. rewrite p2. cbn. lra. Qed.
Lemma near_15 : near (literal 15 0) 15 0.
Proof. apply (literal_exact 15 0 8444249301319680 (-49)); [vm_compute; reflexivity|vm_compute; reflexivity|]. unfold value. rewrite p2. cbn. lra. Qed.
Lemma exact_real v x : near v x 0 -> B2R v = x.
Proof. intros (_ & _ & _ & e & He & ->). apply abs_bounds in He. assert (e = 0) as -> by lra. ring. Qed.

Lemma usual_between x : bpow radix2 (-200) <= x -> x <= bpow radix2 150 -> usual x.
Proof. right. lra. Qed.
Lemma low : bpow radix2 (-200) <= / 10 ^ 40.
Proof. apply Rle_trans with (bpow radix2 (-140)); [apply bpow_le; lia|]. change (bpow radix2 (-140)) with (/ 1393796574908163946345982392040522594123776). apply Rinv_le_contravar; lra. Qed.
Lemma high : 10 ^ 40 <= bpow radix2 150.
Proof. change (bpow radix2 150) with 1427247692705959881058285969449495136382746624. lra. Qed.
Lemma near_ms t : (0 <= t <= 2 ^ 63)%Z -> near (milliseconds t) (IZR t / 1000000) (4 * u53).
Proof.
  intros H. assert (U0 : u53 = / 9007199254740992) by reflexivity. destruct lit_e6 as [L1 L2]. pose proof e0_6 as E6. apply abs_bounds in E6. change (IZR (10 ^ 6)) with 1000000 in E6.
  assert (C : near (literal 1 (-6)) (/ 1000000) u53).
  { split; [exact L2|]. split; [|split; [lra|]].
    - destruct (literal 1 (-6)) as [s|s| |s m e b]; try discriminate L2; cbn [B2R] in L1.
      + exfalso. assert (0 < c6) by (unfold c6; apply Rmult_lt_0_compat; [lra|apply bpow_gt_0]). lra.
      + destruct s; [exfalso|reflexivity]. assert (0 < c6) by (unfold c6; apply Rmult_lt_0_compat; [lra|apply bpow_gt_0]). pose proof (F2R_lt_0 radix2 (Float radix2 (cond_Zopp true (Zpos m)) e) ltac:(cbn; lia)). cbn [cond_Zopp] in *. lra.
    - exists (c6 * 1000000 - 1). split; [apply abs_le; lra|rewrite L1; field]. }
  replace (IZR t / 1000000) with (/ 1000000 * IZR t) by field. apply (near_mul _ _ _ _ u53 u53); [exact C|apply near_int, H| | | | | |]; try (rewrite ?U0; lra).
  destruct (Z.eq_dec t 0) as [->|N]; [left; ring|]. assert (1 <= IZR t) by (apply IZR_le; lia). assert (IZR t <= 10 ^ 19) by (apply Rle_trans with (IZR (2 ^ 63)); [apply IZR_le; lia|change (IZR (2 ^ 63)) with 9223372036854775808; lra]).
  pose proof low. pose proof high. apply usual_between; lra.
Qed.
Lemma near_share t w : (0 <= t <= 2 ^ 63)%Z -> (0 < w <= 2 ^ 63)%Z -> near (share t w) (100 * IZR t / IZR w) (16 * u53).
Proof.
  intros Ht Hw. assert (U0 : u53 = / 9007199254740992) by reflexivity. unfold share. assert (W1 : 1 <= IZR w) by (apply IZR_le; lia). assert (W2 : IZR w <= 10 ^ 19) by (apply Rle_trans with (IZR (2 ^ 63)); [apply IZR_le; lia|change (IZR (2 ^ 63)) with 9223372036854775808; lra]).
  assert (T : t = 0%Z \/ 1 <= IZR t <= 10 ^ 19). { destruct (Z.eq_dec t 0) as [->|N]; [left; reflexivity|right]. split; [apply IZR_le; lia|]. apply Rle_trans with (IZR (2 ^ 63)); [apply IZR_le; lia|change (IZR (2 ^ 63)) with 9223372036854775808; lra]. }
  pose proof low. pose proof high.
  replace (100 * IZR t / IZR w) with (100 * (IZR t / 1000000) / (IZR w / 1000000)) by (field; lra).
  apply (near_div _ _ _ _ (6 * u53) (4 * u53)); [|apply near_ms; lia|lra| | | | | |]; try (rewrite ?U0; lra).
  - apply (near_mul _ _ _ _ 0 (4 * u53)); [apply near_100|apply near_ms; exact Ht| | | | | |]; try (rewrite ?U0; lra). destruct T as [->|T]; [left; unfold Rdiv; ring|apply usual_between; lra].
  - replace (100 * (IZR t / 1000000) / (IZR w / 1000000)) with (100 * IZR t * / IZR w) by (field; lra). destruct T as [->|T]; [left; ring|]. assert (I1 : / 10 ^ 19 <= / IZR w) by (apply Rinv_le_contravar; lra). assert (I2 : / IZR w <= / 1) by (apply Rinv_le_contravar; lra).
    apply usual_between; [apply Rle_trans with (100 * / 10 ^ 19); [lra|apply Rmult_le_compat; try lra]|apply Rle_trans with (100 * 10 ^ 19 * 1); [apply Rmult_le_compat; try lra|lra]].
Qed.
Lemma share_mono t t' w : (0 <= t <= t')%Z -> (t' <= 2 ^ 63)%Z -> (0 < w <= 2 ^ 63)%Z -> B2R (share t w) <= B2R (share t' w).
Proof.
  intros H H' Hw. assert (MS : forall t, (0 <= t <= 2 ^ 63)%Z -> B2R (milliseconds t) = rnd (c6 * rnd (IZR t)) /\ is_finite (milliseconds t) = true /\ 0 <= B2R (milliseconds t) <= 10 ^ 19).
  { intros x Hx. pose proof (near_ms x Hx) as N. assert (X : 0 <= IZR x <= 10 ^ 19) by (split; [apply IZR_le; lia|]; apply Rle_trans with (IZR (2 ^ 63)); [apply IZR_le; lia|change (IZR (2 ^ 63)) with 9223372036854775808; lra]).
    split; [|split; [apply N|]].
    - unfold milliseconds. destruct (of_Z_ok x ltac:(lia)) as [B F]. destruct lit_e6 as [L1 L2]. destruct (mul_ok (literal 1 (-6)) (f64_of_Z x) L2 F) as [M _]; [|rewrite M, L1, B; reflexivity].
      rewrite L1, B. destruct (near_int x Hx) as (_ & _ & _ & e & He & Be). rewrite <- B, Be. apply abs_bounds in He. assert (U0 : u53 = / 9007199254740992) by reflexivity. pose proof e0_6 as E6. apply abs_bounds in E6. change (IZR (10 ^ 6)) with 1000000 in E6. pose proof high.
      assert (C : 0 <= c6 <= 1) by lra. rewrite Rabs_pos_eq by (apply Rmult_le_pos; [lra|apply Rmult_le_pos; lra]). apply Rle_trans with (1 * (10 ^ 19 * 2)); [apply Rmult_le_compat; try lra; [apply Rmult_le_pos; lra|apply Rmult_le_compat; lra]|]. apply Rle_trans with (bpow radix2 150); [lra|apply bpow_le; lia].
    - destruct N as (_ & _ & _ & e & He & Be). apply abs_bounds in He. assert (U0 : u53 = / 9007199254740992) by reflexivity. rewrite Be. split; [apply Rmult_le_pos; lra|]. apply Rle_trans with (10 ^ 19 / 1000000 * 2); [apply Rmult_le_compat; lra|lra]. }
  destruct (MS t ltac:(lia)) as (A1 & A2 & A3), (MS t' ltac:(lia)) as (B1 & B2 & B3), (MS w ltac:(lia)) as (C1 & C2 & C3).
  assert (LE : B2R (milliseconds t) <= B2R (milliseconds t')). { rewrite A1, B1. apply rnd_le, Rmult_le_compat_l; [unfold c6; apply Rmult_le_pos; [lra|apply bpow_ge_0]|]. apply rnd_le, IZR_le. lia. }
  assert (W : near (milliseconds w) (IZR w / 1000000) (4 * u53)) by (apply near_ms; lia). assert (WP : 0 < B2R (milliseconds w)). { destruct W as (_ & _ & _ & e & He & Be). apply abs_bounds in He. assert (U0 : u53 = / 9007199254740992) by reflexivity. assert (1 <= IZR w) by (apply IZR_le; lia). rewrite Be. apply Rmult_lt_0_compat; lra. }
  assert (WL : / 10 ^ 7 <= B2R (milliseconds w)). { destruct W as (_ & _ & _ & e & He & Be). apply abs_bounds in He. assert (U0 : u53 = / 9007199254740992) by reflexivity. assert (1 <= IZR w) by (apply IZR_le; lia). rewrite Be. apply Rle_trans with (/ 1000000 * / 2); [lra|apply Rmult_le_compat; lra]. }
  pose proof (exact_real _ _ near_100) as R100. pose proof near_100 as (F100 & _). pose proof high.
  assert (M : forall v, is_finite v = true -> 0 <= B2R v <= 10 ^ 19 -> B2R (f64_mul (literal 100 0) v) = rnd (100 * B2R v) /\ is_finite (f64_mul (literal 100 0) v) = true /\ 0 <= B2R (f64_mul (literal 100 0) v) <= bpow radix2 80).
  { intros v Fv Bv. destruct (mul_ok (literal 100 0) v F100 Fv) as [M1 M2]; [rewrite R100, Rabs_pos_eq by lra; apply Rle_trans with (bpow radix2 150); [lra|apply bpow_le; lia]|]. rewrite R100 in M1. split; [exact M1|]. split; [exact M2|]. rewrite M1. split.
    - apply rnd_lb; [apply generic_format_0|lra].
    - apply rnd_ub; [apply generic_format_bpow; unfold fexp, emin; lia|]. change (bpow radix2 80) with 1208925819614629174706176. lra. }
  destruct (M _ A2 A3) as (M1 & M2 & M3), (M _ B2 B3) as (N1 & N2 & N3). assert (LM : B2R (f64_mul (literal 100 0) (milliseconds t)) <= B2R (f64_mul (literal 100 0) (milliseconds t'))) by (rewrite M1, N1; apply rnd_le; lra).
  assert (Q : forall v : f64, 0 <= B2R v <= bpow radix2 80 -> Rabs (B2R v / B2R (milliseconds w)) <= bpow radix2 200).
  { intros v Bv. assert (I : 0 < / B2R (milliseconds w) <= bpow radix2 24). { split; [apply Rinv_0_lt_compat, WP|]. apply Rle_trans with (/ / 10 ^ 7); [apply Rinv_le_contravar; lra|]. rewrite Rinv_involutive by lra. change (bpow radix2 24) with 16777216. lra. }
    unfold Rdiv. rewrite Rabs_pos_eq by (apply Rmult_le_pos; lra). apply Rle_trans with (bpow radix2 80 * bpow radix2 24); [apply Rmult_le_compat; lra|]. rewrite <- bpow_plus. apply bpow_le. lia. }
  assert (NW : B2R (milliseconds w) <> 0) by lra. unfold share. rewrite (proj1 (div_ok _ _ M2 NW (Q _ M3))), (proj1 (div_ok _ _ N2 NW (Q _ N3))). apply rnd_le. unfold Rdiv. apply Rmult_le_compat_r; [left; apply Rinv_0_lt_compat, WP|exact LM].
Qed.
Lemma near_min c v x E C : near c C 0 -> near v x E -> 0 <= E <= 1 -> 0 < C -> near (f64_min c v) (Rmin C x) E.
Proof.
  intros Nc Nv HE HC. pose proof (exact_real _ _ Nc) as Rc. destruct Nc as (Fc & Sc & _ & _). pose proof (near_dist _ _ _ Nv) as D. destruct Nv as (Fv & Sv & X & _). apply abs_bounds in D. unfold f64_min. rewrite Bltb_correct by assumption. rewrite Rc.
  assert (G : forall w, is_finite w = true -> Bsign w = false -> 0 < Rmin C x -> Rabs (B2R w - Rmin C x) <= E * Rmin C x -> near w (Rmin C x) E).
  { intros w Fw Sw P B. split; [exact Fw|]. split; [exact Sw|]. split; [lra|]. exists (B2R w / Rmin C x - 1). split; [|field; lra]. replace (B2R w / Rmin C x - 1) with ((B2R w - Rmin C x) / Rmin C x) by (field; lra). unfold Rdiv. rewrite Rabs_mult, (Rabs_pos_eq (/ Rmin C x)) by (left; apply Rinv_0_lt_compat, P).
    apply Rmult_le_reg_r with (Rmin C x); [exact P|]. rewrite Rmult_assoc, Rinv_l, Rmult_1_r by lra. exact B. }
  destruct (Req_dec x 0) as [->|Nx].
  - assert (V0 : B2R v = 0) by lra. rewrite V0. rewrite Rlt_bool_false by lra. rewrite Rmin_right by lra. split; [exact Fv|]. split; [exact Sv|]. split; [lra|]. exists 0. rewrite Rabs_R0. split; [lra|]. rewrite V0. ring.
  - assert (P : 0 < Rmin C x) by (apply Rmin_glb_lt; lra). destruct (Rlt_bool_spec C (B2R v)) as [L|L].
    + apply G; [exact Fc|exact Sc|exact P|]. rewrite Rc. unfold Rmin. destruct (Rle_dec C x) as [L2|L2]; [replace (C - C) with 0 by ring; rewrite Rabs_R0; apply Rmult_le_pos; lra|]. rewrite Rabs_pos_eq by lra. lra.
    + apply G; [exact Fv|exact Sv|exact P|]. unfold Rmin. destruct (Rle_dec C x) as [L2|L2]; [|apply abs_le; lra]. apply abs_le. assert (E * x - x <= E * C - C). { assert ((1 - E) * C <= (1 - E) * x) by (apply Rmult_le_compat_l; lra). lra. } assert (0 <= E * C) by (apply Rmult_le_pos; lra). lra.
Qed.
Lemma near_average own count : (0 <= own <= 2 ^ 63)%Z -> (0 < Z.of_nat count <= 2 ^ 63)%Z -> near (average_ns own count) (Rmin 999999 (IZR own / INR count)) (16 * u53).
Proof.
  intros Ho Hc. assert (U0 : u53 = / 9007199254740992) by reflexivity. rewrite (INR_IZR_INZ count). set (c := Z.of_nat count) in *. assert (C1 : 1 <= IZR c) by (apply IZR_le; lia). assert (C2 : IZR c <= 10 ^ 19) by (apply Rle_trans with (IZR (2 ^ 63)); [apply IZR_le; lia|change (IZR (2 ^ 63)) with 9223372036854775808; lra]).
  assert (T : own = 0%Z \/ 1 <= IZR own <= 10 ^ 19). { destruct (Z.eq_dec own 0) as [->|N]; [left; reflexivity|right]. split; [apply IZR_le; lia|]. apply Rle_trans with (IZR (2 ^ 63)); [apply IZR_le; lia|change (IZR (2 ^ 63)) with 9223372036854775808; lra]. }
  pose proof low. pose proof high. assert (I1 : / 10 ^ 19 <= / IZR c) by (apply Rinv_le_contravar; lra). assert (I2 : / IZR c <= / 1) by (apply Rinv_le_contravar; lra).
  unfold average_ns. fold c. apply near_min; [apply near_999999| |rewrite U0; lra|lra].
  assert (V1 : IZR own = 0 \/ / 10 ^ 19 <= IZR own * / IZR c <= 10 ^ 19). { destruct T as [->|T]; [left; reflexivity|right]. split; [apply Rle_trans with (1 * / 10 ^ 19); [lra|apply Rmult_le_compat; lra]|apply Rle_trans with (10 ^ 19 * 1); [apply Rmult_le_compat; lra|lra]]. }
  replace (IZR own / IZR c) with (IZR own / 1000000 / IZR c * 1000000) by (field; lra).
  apply (near_mul _ _ _ _ (8 * u53) 0); [|apply near_e6| | | | | |]; try (rewrite ?U0; lra).
  - apply (near_div _ _ _ _ (4 * u53) u53); [apply near_ms; exact Ho|apply near_int; lia|lra| | | | | |]; try (rewrite ?U0; lra).
    replace (IZR own / 1000000 / IZR c) with (IZR own * / IZR c / 1000000) by (field; lra). destruct V1 as [V1|V1]; [left; rewrite V1; unfold Rdiv; ring|apply usual_between; lra].
  - replace (IZR own / 1000000 / IZR c * 1000000) with (IZR own * / IZR c) by (field; lra). destruct V1 as [V1|V1]; [left; rewrite V1; unfold Rdiv; ring|apply usual_between; lra].
Qed.
Lemma zero_literal : literal 0 0 = B754_zero false.
Proof. vm_compute. reflexivity. Qed.
Lemma near_clamped v x E : near v x E -> 0 <= E <= 1 -> near (f64_clamped v (literal 0 0) (literal 99 0)) (Rmin 99 x) E.
Proof.
  intros N HE. unfold f64_clamped. rewrite zero_literal. pose proof (near_print _ _ _ N) as S. pose proof N as (F & _). rewrite (Bltb_correct 53 1024 v (B754_zero false) F eq_refl). cbn [B2R].
  rewrite Rlt_bool_false by (destruct S as [S| ->]; [lra|cbn; lra]). apply (near_min (literal 99 0) v x E 99 near_99 N HE). lra.
Qed.
Lemma clamped_infinite t : (0 < t <= 2 ^ 63)%Z -> f64_clamped (share t 0) (literal 0 0) (literal 99 0) = literal 99 0.
Proof.
  intros H. assert (Z0 : milliseconds 0 = B754_zero false) by (vm_compute; reflexivity). unfold share. rewrite Z0.
  assert (N : near (f64_mul (literal 100 0) (milliseconds t)) (100 * (IZR t / 1000000)) (6 * u53)).
  { assert (U0 : u53 = / 9007199254740992) by reflexivity. assert (1 <= IZR t) by (apply IZR_le; lia). assert (IZR t <= 10 ^ 19) by (apply Rle_trans with (IZR (2 ^ 63)); [apply IZR_le; lia|change (IZR (2 ^ 63)) with 9223372036854775808; lra]). pose proof low. pose proof high.
    apply (near_mul _ _ _ _ 0 (4 * u53)); [apply near_100|apply near_ms; lia| | | | | |]; try (rewrite ?U0; lra). apply usual_between; lra. }
  destruct N as (F & S & _ & e & He & B). apply abs_bounds in He. destruct (f64_mul (literal 100 0) (milliseconds t)) as [s|s| |s m ex b]; try discriminate F; cbn [Bsign] in S; subst s.
  - exfalso. cbn [B2R] in B. assert (U0 : u53 = / 9007199254740992) by reflexivity. assert (1 <= IZR t) by (apply IZR_le; lia). assert (0 < 100 * (IZR t / 1000000) * (1 + e)) by (apply Rmult_lt_0_compat; lra). lra.
  - assert (D : f64_div (B754_finite false m ex b) (B754_zero false) = B754_infinity false) by reflexivity. rewrite D. unfold f64_clamped. rewrite zero_literal. destruct near_99 as (F9 & _). destruct (literal 99 0) as [s|s| |s m' e' b']; try discriminate F9; try reflexivity.
Qed.

(** * texts *)
Lemma print0_ok (v : f64) x E : near v x E -> exists k, print_0f (B2SF v) = to_string k /\ k = ZnearestE (B2R v) /\ (0 <= k)%Z.
Proof.
  intros N. pose proof (near_print _ _ _ N) as H. destruct N as (F & _). destruct v as [[|]|[|]| |s m e b]; try discriminate F; cbn [B2SF print_0f].
  - destruct H as [H|H]; [cbn in H; lra|discriminate H].
  - exists 0%Z. split; [reflexivity|]. split; [|lia]. cbn [B2R]. symmetry. apply (nearest_Z 0).
  - assert (s = false) as ->. { destruct s; [|reflexivity]. exfalso. destruct H as [H|H]; [|discriminate H]. cbn [B2R] in H. pose proof (F2R_lt_0 radix2 (Float radix2 (cond_Zopp true (Zpos m)) e) ltac:(cbn; lia)). cbn [cond_Zopp] in *. lra. }
    eexists. split; [reflexivity|]. set (k := round_div _ _).
    assert (E1 : k = ZnearestE (B2R (B754_finite false m e b))).
    { unfold k. rewrite round_div_nearest by (apply (scale_den_pos radix2); lia). f_equal.
      pose proof (scaled radix2 (Zpos m) 1 (- e) ltac:(lia)) as SC. change (radix_val radix2) with 2%Z in SC. rewrite SC. rewrite Z.opp_involutive. cbn [B2R cond_Zopp]. unfold F2R. cbn [Fnum Fexp]. field. }
    split; [exact E1|]. rewrite E1. rewrite <- (nearest_Z 0). apply Zrnd_le; [apply valid_rnd_N|]. cbn [B2R]. apply F2R_ge_0. cbn. lia.
Qed.
Lemma fill_length w s : length (fill w s) = Nat.max w (length s).
Proof. unfold fill. rewrite app_length, repeat_length. lia. Qed.
Lemma shows_0 w v x E slack b : near v x E -> E * x <= slack -> B2R v <= IZR b -> (b < 10 ^ 18)%Z -> shows_number w 0 x slack (fill w (print_0f (B2SF v))) /\ (length (fill w (print_0f (B2SF v))) <= Nat.max w 18)%nat.
Proof.
  intros N S B Hb. destruct (print0_ok v x E N) as (k & Ek & Kk & K0). rewrite Ek. pose proof (near_dist _ _ _ N) as D. pose proof (half_near (B2R v)) as Hn. rewrite <- Kk in Hn.
  split.
  - exists k, (to_string k). split; [exact K0|]. split; [|split; [apply plain_string, K0|reflexivity]]. unfold rounded_to. rewrite pow_O, Rmult_1_r. apply abs_le. apply abs_bounds in D, Hn. lra.
  - rewrite fill_length. assert (KB : (k <= b)%Z) by (rewrite Kk, <- (nearest_Z b); apply Zrnd_le; [apply valid_rnd_N|exact B]). assert (Lk : (length (to_string k) <= 18)%nat) by (apply short_string; [change (Z.of_nat 18) with 18%Z; lia|lia]). lia.
Qed.
Lemma shows_2 w v x E slack b : near v x E -> E * x * 100 <= slack -> B2R v <= IZR b -> (b < 10 ^ 16)%Z -> shows_number w 2 x slack (fill w (print_f 2 (B2SF v))) /\ (length (fill w (print_f 2 (B2SF v))) <= Nat.max w 21)%nat.
Proof.
  intros N S B Hb. pose proof N as (F & _). destruct (print_ok 2 v F (near_print _ _ _ N)) as (k & Ek & Kk & K0). rewrite Ek. pose proof (near_dist _ _ _ N) as D. change (IZR (10 ^ Z.of_nat 2)) with 100 in Kk. pose proof (half_near (B2R v * 100)) as Hn. rewrite <- Kk in Hn.
  split.
  - exists k, (format_f 2 k). split; [exact K0|]. split; [|split; [apply format_ok; [exact K0|lia]|reflexivity]]. unfold rounded_to. apply abs_le. apply abs_bounds in D, Hn. lra.
  - rewrite fill_length. unfold format_f. rewrite app_length. cbn [length]. assert (KB : (k <= b * 100)%Z). { rewrite Kk, <- (nearest_Z (b * 100)). apply Zrnd_le; [apply valid_rnd_N|]. rewrite mult_IZR. lra. }
    change (10 ^ Z.of_nat 2)%Z with 100%Z. assert (Lk : (length (to_string (k / 100)) <= 18)%nat) by (apply short_string; [change (Z.of_nat 18) with 18%Z; lia|lia]). pose proof (pad_zero_ok 2 (k mod 100) ltac:(change (10 ^ Z.of_nat 2)%Z with 100%Z; lia) ltac:(lia)) as (P & _). rewrite P. lia.
Qed.
Lemma near_99_text : print_0f (B2SF (literal 99 0)) = lit "99".
Proof. unfold literal. rewrite sf_ok by (vm_compute; reflexivity). vm_compute. reflexivity. Qed.
Lemma value_text whole total own count overhead : (0 < whole <= 2 ^ 63)%Z -> (0 <= own <= total)%Z -> (total <= whole)%Z -> (0 < count)%nat -> (Z.of_nat count < 2 ^ 31)%Z -> (0 <= overhead <= 2 ^ 63)%Z -> (0 < total \/ 0 < overhead)%Z ->
  section_text whole total own count overhead (section_value whole total own count overhead).
Proof.
  intros Hw Ho Ht Hc Hc2 Hv Hz. assert (U0 : u53 = / 9007199254740992) by reflexivity.
  pose proof (near_ms total ltac:(lia)) as N1. pose proof (near_share total whole ltac:(lia) ltac:(lia)) as N2. pose proof (near_share own whole ltac:(lia) ltac:(lia)) as N3. pose proof (near_average own count ltac:(lia) ltac:(lia)) as N4.
  assert (W1 : 1 <= IZR whole) by (apply IZR_le; lia). assert (W2 : IZR whole <= 9223372036854775808) by (apply (IZR_le whole (2 ^ 63)); lia). assert (T1 : 0 <= IZR own <= IZR total) by (split; apply IZR_le; lia). assert (T2 : IZR total <= IZR whole) by (apply IZR_le; lia).
  assert (Q : forall x, 0 <= x <= IZR whole -> 0 <= 100 * x / IZR whole <= 100). { intros x Hx. split; [apply Rmult_le_pos; [lra|left; apply Rinv_0_lt_compat; lra]|]. apply Rmult_le_reg_r with (IZR whole); [lra|]. unfold Rdiv. rewrite Rmult_assoc, Rinv_l, Rmult_1_r by lra. lra. }
  pose proof (Q (IZR total) ltac:(lra)) as Q1. pose proof (Q (IZR own) ltac:(lra)) as Q2.
  assert (UP : forall v x E b, near v x E -> E <= / 100 -> x * 2 <= b -> B2R v <= b). { intros v x E b (_ & _ & X & e & He & ->) HE HB. apply abs_bounds in He. apply Rle_trans with (x * 2); [apply Rmult_le_compat_l; lra|exact HB]. }
  destruct (shows_0 6 (milliseconds total) (IZR total / 1000000) (4 * u53) (IZR total / 10 ^ 6 / 2 ^ 48) (10 ^ 17) N1) as [A1 A2]; [rewrite U0; lra|apply (UP _ _ _ _ N1); [rewrite U0; lra|change (IZR (10 ^ 17)) with 100000000000000000; lra]|lia|].
  destruct (shows_2 6 (share total whole) (100 * IZR total / IZR whole) (16 * u53) (100 * IZR total / IZR whole * 10 ^ 2 / 2 ^ 48) 1000 N2) as [B1 B2]; [rewrite U0; lra|apply (UP _ _ _ _ N2); [rewrite U0; lra|lra]|lia|].
  destruct (shows_2 5 (share own whole) (100 * IZR own / IZR whole) (16 * u53) (100 * IZR own / IZR whole * 10 ^ 2 / 2 ^ 48) 1000 N3) as [C1 C2]; [rewrite U0; lra|apply (UP _ _ _ _ N3); [rewrite U0; lra|lra]|lia|].
  assert (R0 : 0 <= Rmin 999999 (IZR own / INR count) <= 999999) by (split; [apply N4|apply Rmin_l]).
  destruct (shows_0 6 (average_ns own count) (Rmin 999999 (IZR own / INR count)) (16 * u53) (Rmin 999999 (IZR own / INR count) / 2 ^ 48) 10000000 N4) as [E1 E2]; [rewrite U0; lra|apply (UP _ _ _ _ N4); [rewrite U0; lra|lra]|lia|].
  assert (AI : as_int count = Z.of_nat count) by (unfold as_int; rewrite Z.mod_small by lia; destruct (Z.ltb_spec (Z.of_nat count) (2 ^ 31)); lia).
  assert (F : exists f, f = fill 2 (print_0f (B2SF (f64_clamped (share overhead total) (literal 0 0) (literal 99 0)))) /\ ((0 < total)%Z -> shows_number 2 0 (Rmin 99 (100 * IZR overhead / IZR total)) (Rmin 99 (100 * IZR overhead / IZR total) / 2 ^ 48) f) /\ (total = 0%Z -> (0 < overhead)%Z -> f = lit "99") /\ (length f <= 18)%nat).
  { eexists. split; [reflexivity|]. destruct (Z.eq_dec total 0) as [->|Nt].
    - assert (Hv' : (0 < overhead)%Z) by lia. rewrite (clamped_infinite overhead ltac:(lia)), near_99_text. split; [lia|]. split; [reflexivity|cbn; lia].
    - pose proof (near_share overhead total ltac:(lia) ltac:(lia)) as N5. pose proof (near_clamped _ _ _ N5 ltac:(rewrite U0; lra)) as N6. assert (R9 : 0 <= Rmin 99 (100 * IZR overhead / IZR total) <= 99) by (split; [apply N6|apply Rmin_l]).
      destruct (shows_0 2 _ (Rmin 99 (100 * IZR overhead / IZR total)) (16 * u53) (Rmin 99 (100 * IZR overhead / IZR total) / 2 ^ 48) 1000 N6) as [F1 F2]; [rewrite U0; lra|apply (UP _ _ _ _ N6); [rewrite U0; lra|lra]|lia|].
      split; [intros _; exact F1|]. split; [lia|exact F2]. }
  destruct F as (f & Ef & F1 & F2 & F3). unfold section_value. rewrite <- Ef, AI. assert (Lc : (length (to_string (Z.of_nat count)) <= 18)%nat) by (apply short_string; [change (Z.of_nat 18) with 18%Z; lia|lia]).
  rewrite firstn_all2. 2: { rewrite !app_length, (fill_length 6 (to_string (Z.of_nat count))). cbn [length lit list_ascii_of_string]. lia. }
  do 6 eexists. split; [reflexivity|]. cbv zeta. split; [replace (IZR total / 10 ^ 6) with (IZR total / 1000000) by (field; lra); replace (IZR total / 10 ^ 6 / 2 ^ 48) with (IZR total / 1000000 / 2 ^ 48) in A1 by (field; lra); exact A1|]. split; [exact B1|]. split; [exact C1|].
  split; [exists (to_string (Z.of_nat count)); split; [apply plain_string; lia|reflexivity]|]. split; [exact E1|]. split; assumption.
Qed.
Lemma tag_level x : is_finite x = true -> exists d, level_tag x = lit "@" ++ [ascii_of_nat (48 + Z.to_nat d)] /\ level_of (B2R x) d.
Proof.
  intros F. unfold level_tag. pose proof (exact_real _ _ near_1) as R1. pose proof (exact_real _ _ near_5) as R5. pose proof (exact_real _ _ near_15) as R15. pose proof near_1 as (F1 & _). pose proof near_5 as (F5 & _). pose proof near_15 as (F15 & _).
  rewrite !Bltb_correct by assumption. rewrite R1, R5, R15. unfold level_of. destruct (Rlt_bool_spec (B2R x) 1); [exists 2%Z; split; [reflexivity|left; split; [lra|reflexivity]]|].
  destruct (Rlt_bool_spec (B2R x) 5); [exists 3%Z; split; [reflexivity|right; left; split; [lra|reflexivity]]|].
  destruct (Rlt_bool_spec (B2R x) 15); [exists 4%Z; split; [reflexivity|right; right; left; split; [lra|reflexivity]]|exists 5%Z; split; [reflexivity|right; right; right; split; [lra|reflexivity]]].
Qed.
