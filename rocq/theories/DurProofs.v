(** Proofs about times in double precision and their texts. *)
From Coq Require Import Ascii String List Arith Bool ZArith Reals Lra Lia ZifyBool SpecFloat.
From Flocq Require Import Core IEEE754.BinarySingleNaN Relative.
From Verif Require Import Base Str StrModel CastSpec CastModel CastProofs UtilModel UtilProofs FltSpec FltModel FltNum FltText FltProofs DurSpec DurModel.
Import ListNotations.
Local Open Scope R_scope.

Notation fx := (fexp 53 1024).
Definition rnd (x : R) : R := round radix2 fx ZnearestE x.
Local Instance fx_valid : Valid_exp fx.
Proof. apply (fexp_correct 53 1024 prec64). Qed.
Local Instance fx_mono : Monotone_exp fx.
Proof. apply (fexp_monotone 53 1024). Qed.

Lemma rnd_le x y : x <= y -> rnd x <= rnd y.
Proof. apply round_le; [exact fx_valid|apply valid_rnd_N]. Qed.
(** numbers n / 2^k that are doubles *)
Lemma grid_format (n k : Z) : (Z.abs n <= 2 ^ 53)%Z -> (-1000 <= - k <= 900)%Z -> generic_format radix2 fx (IZR n * bpow radix2 (- k)).
Proof.
  intros Hn Hk. destruct (Z.eq_dec (Z.abs n) (2 ^ 53)) as [E|N].
  - assert (X : generic_format radix2 fx (bpow radix2 53 * bpow radix2 (- k))).
    { rewrite <- bpow_plus. apply generic_format_bpow. unfold fexp, emin. lia. }
    destruct (Z_le_dec 0 n) as [P|P].
    + replace (IZR n) with (bpow radix2 53); [exact X|]. rewrite Z.abs_eq in E by exact P. rewrite E. reflexivity.
    + replace (IZR n) with (- bpow radix2 53); [rewrite <- Ropp_mult_distr_l; apply generic_format_opp, X|]. assert (n = - 2 ^ 53)%Z as -> by lia. rewrite opp_IZR. reflexivity.
  - change (IZR n * bpow radix2 (- k)) with (F2R (Float radix2 n (- k))). apply generic_format_F2R. intros N0. unfold cexp, fexp, emin. rewrite mag_F2R by exact N0.
    assert (M : (mag radix2 (IZR n) <= 53)%Z); [|lia]. apply mag_le_bpow; [apply IZR_neq; exact N0|]. rewrite <- abs_IZR. change (bpow radix2 53) with (IZR (2 ^ 53)). apply IZR_lt. lia.
Qed.
Lemma int_format n : (Z.abs n <= 2 ^ 53)%Z -> generic_format radix2 fx (IZR n).
Proof. intros H. replace (IZR n) with (IZR n * bpow radix2 (- 0)) by (cbn; lra). apply grid_format; lia. Qed.
Lemma rnd_exact x : generic_format radix2 fx x -> rnd x = x.
Proof. intros H. apply round_generic; [apply valid_rnd_N|exact H]. Qed.
Lemma rnd_ub x b : generic_format radix2 fx b -> x <= b -> rnd x <= b.
Proof. intros Hb H. rewrite <- (rnd_exact b Hb). apply rnd_le, H. Qed.
Lemma rnd_lb x b : generic_format radix2 fx b -> b <= x -> b <= rnd x.
Proof. intros Hb H. rewrite <- (rnd_exact b Hb). apply rnd_le, H. Qed.
Lemma rnd_abs x b : generic_format radix2 fx b -> Rabs x <= b -> Rabs (rnd x) <= b.
Proof. intros Hb H. apply abs_round_le_generic; [exact fx_valid|apply valid_rnd_N|exact Hb|exact H]. Qed.
Lemma big_format : generic_format radix2 fx (bpow radix2 200).
Proof. apply generic_format_bpow. unfold fexp, emin. lia. Qed.
Lemma small_finite x : Rabs x <= bpow radix2 200 -> Rlt_bool (Rabs (rnd x)) (bpow radix2 1024) = true.
Proof. intros H. apply Rlt_bool_true. eapply Rle_lt_trans; [apply (rnd_abs _ _ big_format H)|apply bpow_lt; lia]. Qed.
Lemma rnd_rel x : x = 0 \/ bpow radix2 (-500) <= Rabs x -> exists e, Rabs e <= bpow radix2 (-53) /\ rnd x = x * (1 + e).
Proof.
  intros [->|H]; [exists 0; rewrite Rabs_R0; split; [apply bpow_ge_0|unfold rnd; rewrite round_0; [lra|apply valid_rnd_N]]|].
  destruct (relative_error_N_FLT_ex radix2 (emin 53 1024) 53 eq_refl (fun x => negb (Z.even x)) x) as (e & He & E).
  { eapply Rle_trans; [|exact H]. apply bpow_le. unfold emin. lia. }
  exists e. split; [|exact E]. eapply Rle_trans; [exact He|]. change (-53)%Z with (-1 + (-53 + 1))%Z. rewrite (bpow_plus radix2 (-1)). apply Req_le. reflexivity.
Qed.

(** * the operations *)
Lemma of_Z_ok z : (Z.abs z <= 2 ^ 100)%Z -> B2R (f64_of_Z z) = rnd (IZR z) /\ is_finite (f64_of_Z z) = true.
Proof.
  intros H. pose proof (binary_normalize_correct 53 1024 prec64 emax64 mode_NE z 0 false) as G. cbv zeta in G.
  assert (E : F2R (Float radix2 z 0) = IZR z) by (unfold F2R; cbn; lra). rewrite E in G. cbn [round_mode] in G. fold (rnd (IZR z)) in G.
  rewrite small_finite in G; [split; apply G|]. rewrite <- abs_IZR. apply Rle_trans with (IZR (2 ^ 100)); [apply IZR_le, H|]. change (IZR (2 ^ 100)) with (bpow radix2 100). apply bpow_le. lia.
Qed.
Lemma mul_ok a b : is_finite a = true -> is_finite b = true -> Rabs (B2R a * B2R b) <= bpow radix2 200 ->
  B2R (f64_mul a b) = rnd (B2R a * B2R b) /\ is_finite (f64_mul a b) = true.
Proof.
  intros Fa Fb H. pose proof (Bmult_correct 53 1024 prec64 emax64 mode_NE a b) as G. cbn [round_mode] in G. fold (rnd (B2R a * B2R b)) in G.
  rewrite (small_finite _ H), Fa, Fb in G. split; apply G.
Qed.
Lemma add_ok a b : is_finite a = true -> is_finite b = true -> Rabs (B2R a + B2R b) <= bpow radix2 200 ->
  B2R (f64_add a b) = rnd (B2R a + B2R b) /\ is_finite (f64_add a b) = true.
Proof.
  intros Fa Fb H. pose proof (Bplus_correct 53 1024 prec64 emax64 mode_NE a b Fa Fb) as G. cbn [round_mode] in G. fold (rnd (B2R a + B2R b)) in G.
  rewrite (small_finite _ H) in G. split; apply G.
Qed.
Lemma sf_ok x : valid_binary 53 1024 x = true -> B2SF (sf64 x) = x.
Proof. intros H. unfold sf64. destruct (Bool.bool_dec _ _) as [V|V]; [apply B2SF_SF2B|contradiction]. Qed.
Lemma sf_real x : valid_binary 53 1024 x = true -> B2R (sf64 x) = value x /\ (finite x -> is_finite (sf64 x) = true).
Proof.
  intros H. pose proof (sf_ok x H) as E. split.
  - transitivity (SF2R radix2 (B2SF (sf64 x))); [symmetry; apply SF2R_B2SF|rewrite E; symmetry; apply value_SF].
  - intros F. rewrite <- is_finite_SF_B2SF, E. destruct x; try contradiction; reflexivity.
Qed.
Lemma trunc_ok (x : f64) : IZR (Btrunc x) = IZR (Ztrunc (B2R x)).
Proof. rewrite (Btrunc_correct 53 1024 emax64). apply round_FIX_IZR. Qed.
Lemma trunc_between (x : f64) n : (0 <= n)%Z -> IZR n <= B2R x < IZR n + 1 -> Btrunc x = n.
Proof.
  intros P H. apply eq_IZR. rewrite trunc_ok. f_equal. rewrite Ztrunc_floor by (apply Rle_trans with (IZR n); [apply IZR_le, P|apply H]).
  apply Zfloor_imp. rewrite plus_IZR. exact H.
Qed.

(** * the literals *)
Definition c9 := (IZR 4835703278458517 * bpow radix2 (-82)).
Definition c6 := (IZR 4722366482869645 * bpow radix2 (-72)).
Lemma lit_e9 : B2R (literal 1 (-9)) = c9 /\ is_finite (literal 1 (-9)) = true.
Proof.
  unfold literal. assert (E : round_scaled f_double false 1 10 (-9) = S754_finite false 4835703278458517 (-82)) by (vm_compute; reflexivity). rewrite E.
  destruct (sf_real (S754_finite false 4835703278458517 (-82)) eq_refl) as [A B]. split; [rewrite A; unfold value; rewrite p2; reflexivity|apply B; exact I].
Qed.
Lemma lit_e6 : B2R (literal 1 (-6)) = c6 /\ is_finite (literal 1 (-6)) = true.
Proof.
  unfold literal. assert (E : round_scaled f_double false 1 10 (-6) = S754_finite false 4722366482869645 (-72)) by (vm_compute; reflexivity). rewrite E.
  destruct (sf_real (S754_finite false 4722366482869645 (-72)) eq_refl) as [A B]. split; [rewrite A; unfold value; rewrite p2; reflexivity|apply B; exact I].
Qed.
Lemma lit_9 : B2R (literal 1 9) = 1000000000 /\ is_finite (literal 1 9) = true.
Proof.
  unfold literal. assert (E : round_scaled f_double false 1 10 9 = S754_finite false 8388608000000000 (-23)) by (vm_compute; reflexivity). rewrite E.
  destruct (sf_real (S754_finite false 8388608000000000 (-23)) eq_refl) as [A B]. split; [rewrite A; unfold value; rewrite p2; cbn; lra|apply B; exact I].
Qed.
Lemma lit_6 : B2R (literal 1 6) = 1000000 /\ is_finite (literal 1 6) = true.
Proof.
  unfold literal. assert (E : round_scaled f_double false 1 10 6 = S754_finite false 8589934592000000 (-33)) by (vm_compute; reflexivity). rewrite E.
  destruct (sf_real (S754_finite false 8589934592000000 (-33)) eq_refl) as [A B]. split; [rewrite A; unfold value; rewrite p2; cbn; lra|apply B; exact I].
Qed.
Lemma lit_half : B2R (literal 5 (-1)) = / 2 /\ is_finite (literal 5 (-1)) = true.
Proof.
  unfold literal. assert (E : round_scaled f_double false 5 10 (-1) = S754_finite false 4503599627370496 (-53)) by (vm_compute; reflexivity). rewrite E.
  destruct (sf_real (S754_finite false 4503599627370496 (-53)) eq_refl) as [A B]. split; [rewrite A; unfold value; rewrite p2; cbn; lra|apply B; exact I].
Qed.

(** * there and back *)
Lemma prod_err a b A B : Rabs a <= A -> Rabs b <= B -> Rabs ((1 + a) * (1 + b) - 1) <= A + B + A * B.
Proof.
  intros Ha Hb. replace ((1 + a) * (1 + b) - 1) with (a + b + a * b) by ring.
  eapply Rle_trans; [apply Rabs_triang|]. apply Rplus_le_compat; [eapply Rle_trans; [apply Rabs_triang|]; lra|]. rewrite Rabs_mult. apply Rmult_le_compat; try assumption; apply Rabs_pos.
Qed.
Definition u53 : R := bpow radix2 (-53).
Lemma u53_eq : u53 = / 9007199254740992.
Proof. reflexivity. Qed.

Section Conv.
  Context (lc lm : f64) (c : R) (M : Z).
  Context (Hc : B2R lc = c) (Fc : is_finite lc = true) (Hm : B2R lm = IZR M) (Fm : is_finite lm = true).
  Context (HM : (0 < M <= 2 ^ 30)%Z) (E0 : Rabs (c * IZR M - 1) <= 3 / 4 * u53).
  Definition conv (t : Z) : f64 := f64_mul lc (f64_of_Z t).
  Definition back (s : f64) : outcome Z := to_ll (f64_add (f64_mul s lm) (literal 5 (-1))).

  Lemma M_pos : 0 < IZR M <= 1073741824.
  Proof. split; [apply IZR_lt; lia|apply (IZR_le M (2 ^ 30)); lia]. Qed.
  Lemma c_bounds : / 2147483648 <= c <= 2.
  Proof.
    pose proof M_pos as [M1 M2]. apply Rabs_le_inv in E0. rewrite u53_eq in E0.
    assert (L : 1 <= IZR M) by (apply IZR_le; lia). split.
    - apply Rmult_le_reg_r with (IZR M); [lra|]. nra.
    - nra.
  Qed.
  Lemma Z_bound t : (Z.abs t <= 2 ^ 63)%Z -> Rabs (IZR t) <= 9223372036854775808.
  Proof. intros H. rewrite <- abs_IZR. apply (IZR_le _ (2 ^ 63)), H. Qed.
  Lemma big200 x : Rabs x <= 1000000000000000000000000000000 -> Rabs x <= bpow radix2 200.
  Proof. intros H. eapply Rle_trans; [exact H|]. apply Rle_trans with (bpow radix2 100); [|apply bpow_le; lia]. cbn. lra. Qed.
  Lemma rnd_Z t : (Z.abs t <= 2 ^ 63)%Z -> Rabs (rnd (IZR t)) <= 9223372036854775808.
  Proof.
    intros H. change 9223372036854775808 with (bpow radix2 63). apply rnd_abs; [apply generic_format_bpow; unfold fexp, emin; lia|]. apply (Z_bound t H).
  Qed.
  Lemma conv_real t : (Z.abs t <= 2 ^ 63)%Z -> B2R (conv t) = rnd (c * rnd (IZR t)) /\ is_finite (conv t) = true.
  Proof.
    intros H. destruct (of_Z_ok t) as [A B]; [lia|]. destruct (mul_ok lc (f64_of_Z t) Fc B) as [X Y].
    - rewrite Hc, A. apply big200. rewrite Rabs_mult. pose proof c_bounds as C. rewrite (Rabs_pos_eq c) by lra. pose proof (rnd_Z t H). pose proof (Rabs_pos (rnd (IZR t))). nra.
    - rewrite Hc, A in X. split; assumption.
  Qed.
  Lemma conv_mono a b : (- 2 ^ 63 <= a)%Z -> (a <= b)%Z -> (b <= 2 ^ 63)%Z -> B2R (conv a) <= B2R (conv b).
  Proof.
    intros A L B. rewrite (proj1 (conv_real a ltac:(lia))), (proj1 (conv_real b ltac:(lia))). apply rnd_le. pose proof c_bounds. apply Rmult_le_compat_l; [lra|]. apply rnd_le, IZR_le, L.
  Qed.
  Lemma rel_int t : exists e, Rabs e <= u53 /\ rnd (IZR t) = IZR t * (1 + e).
  Proof.
    apply rnd_rel. destruct (Z.eq_dec t 0) as [->|N]; [left; reflexivity|right]. apply Rle_trans with 1; [apply (bpow_le radix2 (-500) 0); lia|]. rewrite <- abs_IZR. apply IZR_le. lia.
  Qed.
  Lemma rel_big x : x = 0 \/ / 1000000000000000000000000000000 <= Rabs x -> exists e, Rabs e <= u53 /\ rnd x = x * (1 + e).
  Proof.
    intros H. apply rnd_rel. destruct H as [H|H]; [left; exact H|right]. eapply Rle_trans; [|exact H]. apply Rle_trans with (bpow radix2 (-200)); [apply bpow_le; lia|].
    rewrite bpow_opp with (e := 200%Z). apply Rinv_le; [lra|]. cbn. lra.
  Qed.
  Lemma big_enough t e : t <> 0%Z -> Rabs e <= u53 -> / 100000000000000000000 <= Rabs (c * (IZR t * (1 + e))).
  Proof.
    intros N He. pose proof c_bounds as C. rewrite u53_eq in He. apply Rabs_le_inv in He. rewrite !Rabs_mult, (Rabs_pos_eq c), (Rabs_pos_eq (1 + e)) by lra.
    assert (T : 1 <= Rabs (IZR t)) by (rewrite <- abs_IZR; apply IZR_le; lia).
    assert (X : / 2 <= Rabs (IZR t) * (1 + e)) by nra. assert (Y : / 2147483648 * / 2 <= c * (Rabs (IZR t) * (1 + e))) by (apply Rmult_le_compat; lra). lra.
  Qed.
  Lemma conv_close t : (Z.abs t <= 2 ^ 63)%Z -> Rabs (B2R (conv t) - IZR t / IZR M) <= bpow radix2 (-51) * (Rabs (IZR t) / IZR M).
  Proof.
    intros H. rewrite (proj1 (conv_real t H)). destruct (rel_int t) as (e1 & H1 & ->). destruct (rel_big (c * (IZR t * (1 + e1)))) as (e2 & H2 & ->).
    { destruct (Z.eq_dec t 0) as [->|N]; [left; ring|right]. pose proof (big_enough t e1 N H1). lra. }
    pose proof M_pos as MP. set (e0 := c * IZR M - 1) in *. replace c with ((1 + e0) / IZR M) by (unfold e0; field; lra).
    replace ((1 + e0) / IZR M * (IZR t * (1 + e1)) * (1 + e2) - IZR t / IZR M) with (((1 + e0) * (1 + e1) * (1 + e2) - 1) * (IZR t / IZR M)) by (field; lra).
    rewrite Rabs_mult. unfold Rdiv at 1. rewrite Rabs_mult, (Rabs_pos_eq (/ IZR M)) by (left; apply Rinv_0_lt_compat; lra). fold (Rabs (IZR t) / IZR M).
    apply Rmult_le_compat_r; [apply Rmult_le_pos; [apply Rabs_pos|left; apply Rinv_0_lt_compat; lra]|].
    pose proof (prod_err e0 e1 _ _ E0 H1) as P1. replace ((1 + e0) * (1 + e1)) with (1 + ((1 + e0) * (1 + e1) - 1)) by ring. eapply Rle_trans; [apply prod_err; eassumption|].
    rewrite u53_eq. change (bpow radix2 (-51)) with (/ 2251799813685248). lra.
  Qed.
  Lemma back_near (s : f64) n : is_finite s = true -> (0 <= n < 2 ^ 50)%Z -> Rabs (B2R s * IZR M) <= 1000000000000000000000000000000 -> Rabs (rnd (B2R s * IZR M) - IZR n) <= 3 / 8 -> back s = Ok n.
  Proof.
    intros Fs Hn Hb Hp. unfold back, to_ll. destruct (mul_ok s lm Fs Fm) as [A B]; [rewrite Hm; apply big200, Hb|]. rewrite Hm in A. destruct lit_half as [Hh Fh].
    assert (N : 0 <= IZR n <= IZR (2 ^ 50)) by (split; apply IZR_le; lia). apply Rabs_le_inv in Hp.
    destruct (add_ok (f64_mul s lm) (literal 5 (-1)) B Fh) as [P Q].
    { apply big200. rewrite A, Hh. apply Rabs_le. cbn in N. lra. }
    rewrite A, Hh in P. rewrite Q. assert (T : Btrunc (f64_add (f64_mul s lm) (literal 5 (-1))) = n).
    { apply trunc_between; [apply Hn|]. rewrite P. split.
      - apply rnd_lb; [apply int_format; lia|lra].
      - apply Rle_lt_trans with (IZR (8 * n + 7) * bpow radix2 (- 3)).
        + apply rnd_ub; [apply (grid_format (8 * n + 7) 3); lia|]. rewrite plus_IZR, mult_IZR. change (bpow radix2 (- 3)) with (/ 8). lra.
        + rewrite plus_IZR, mult_IZR. change (bpow radix2 (- 3)) with (/ 8). lra. }
    rewrite T. destruct (- 2 ^ 63 <=? n)%Z eqn:X; [|lia]. destruct (n <? 2 ^ 63)%Z eqn:Y; [reflexivity|lia].
  Qed.
  Lemma round_trip t : (0 <= t < 2 ^ 50)%Z -> back (conv t) = Ok t.
  Proof.
    intros Ht. destruct (conv_real t) as [A F]; [lia|]. rewrite (rnd_exact (IZR t)) in A by (apply int_format; lia). pose proof M_pos as MP. pose proof c_bounds as C.
    assert (T : 0 <= IZR t <= 1125899906842624) by (split; [apply IZR_le; lia|apply (IZR_le t (2 ^ 50)); lia]).
    destruct (rel_big (c * IZR t)) as (e1 & H1 & R1).
    { destruct (Z.eq_dec t 0) as [->|N]; [left; ring|right]. pose proof (big_enough t 0 N ltac:(rewrite Rabs_R0; apply bpow_ge_0)) as G. rewrite Rplus_0_r, Rmult_1_r in G. lra. }
    assert (E : B2R (conv t) * IZR M = (1 + (c * IZR M - 1)) * (1 + e1) * IZR t) by (rewrite A, R1; ring).
    pose proof (prod_err _ _ _ _ E0 H1) as P1. set (d := (1 + (c * IZR M - 1)) * (1 + e1) - 1) in *.
    assert (Ed : B2R (conv t) * IZR M = (1 + d) * IZR t) by (rewrite E; unfold d; ring).
    assert (D : Rabs d <= 2 * u53). { eapply Rle_trans; [exact P1|]. rewrite u53_eq. lra. } rewrite u53_eq in D. pose proof (Rabs_le_inv _ _ D) as D'.
    destruct (rel_big (B2R (conv t) * IZR M)) as (e2 & H2 & R2).
    { destruct (Z.eq_dec t 0) as [->|N]; [left; rewrite Ed; ring|right]. rewrite Ed. assert (1 <= IZR t) by (apply IZR_le; lia). rewrite Rabs_pos_eq by nra. nra. }
    apply (back_near _ t F Ht).
    - rewrite Ed. rewrite Rabs_pos_eq by nra. nra.
    - rewrite R2, Ed. replace ((1 + d) * IZR t * (1 + e2) - IZR t) with (((1 + d) * (1 + e2) - 1) * IZR t) by ring. rewrite Rabs_mult, (Rabs_pos_eq (IZR t)) by lra.
      rewrite u53_eq in P1. pose proof (prod_err d e2 _ _ P1 H2) as P2. rewrite u53_eq in P2.
      apply Rle_trans with (/ 9007199254740992 * (276 / 100) * 1125899906842624); [|lra]. apply Rmult_le_compat; [apply Rabs_pos|lra| |lra]. eapply Rle_trans; [exact P2|]. lra.
  Qed.
  Lemma back_close s : is_finite s = true -> 0 <= B2R s -> B2R s * IZR M <= 1125899906842624 -> exists n, back s = Ok n /\ Rabs (IZR n - B2R s * IZR M) < 1.
  Proof.
    intros Fs S0 S1. pose proof M_pos as MP. set (x := B2R s * IZR M) in *. assert (X0 : 0 <= x) by (apply Rmult_le_pos; lra).
    destruct (mul_ok s lm Fs Fm) as [A B]; [rewrite Hm; fold x; apply big200; rewrite Rabs_pos_eq; lra|]. rewrite Hm in A. fold x in A. destruct lit_half as [Hh Fh].
    assert (P0 : 0 <= rnd x <= 1125899906842624).
    { split; [apply rnd_lb; [apply (int_format 0); lia|exact X0]|]. apply rnd_ub; [apply (int_format 1125899906842624); lia|exact S1]. }
    destruct (add_ok (f64_mul s lm) (literal 5 (-1)) B Fh) as [P Q]; [rewrite A, Hh; apply big200; rewrite Rabs_pos_eq; lra|]. rewrite A, Hh in P.
    assert (D1 : Rabs (rnd x - x) <= / 8).
    { destruct (Rle_or_lt x (/ 1000000000000000000000000000000)) as [L|L].
      - apply Rabs_le. split; [lra|]. assert (rnd x <= bpow radix2 (-90)); [|change (bpow radix2 (-90)) with (/ 1237940039285380274899124224) in H; lra].
        apply rnd_ub; [apply generic_format_bpow; unfold fexp, emin; lia|]. change (bpow radix2 (-90)) with (/ 1237940039285380274899124224). lra.
      - destruct (rel_big x) as (e & He & ->); [right; rewrite Rabs_pos_eq; lra|]. replace (x * (1 + e) - x) with (e * x) by ring. rewrite Rabs_mult, (Rabs_pos_eq x) by lra.
        apply Rle_trans with (u53 * 1125899906842624); [apply Rmult_le_compat; try lra; apply Rabs_pos|rewrite u53_eq; lra]. }
    destruct (rel_big (rnd x + / 2)) as (e & He & R2); [right; rewrite Rabs_pos_eq; lra|]. apply Rabs_le_inv in D1. rewrite u53_eq in He. apply Rabs_le_inv in He.
    assert (D2 : - / 7 <= rnd (rnd x + / 2) - (rnd x + / 2) <= / 7) by (rewrite R2; nra).
    unfold back, to_ll. rewrite Q. assert (T : IZR (Btrunc (f64_add (f64_mul s lm) (literal 5 (-1)))) <= rnd (rnd x + / 2) < IZR (Btrunc (f64_add (f64_mul s lm) (literal 5 (-1)))) + 1).
    { rewrite trunc_ok, P. rewrite Ztrunc_floor by (rewrite R2; nra). split; [apply Zfloor_lb|apply Zfloor_ub]. }
    set (n := Btrunc _) in *. assert (N : (-1 <= n < 2 ^ 51)%Z).
    { split; [apply le_IZR; cbn; lra|apply lt_IZR; cbn; lra]. }
    destruct (- 2 ^ 63 <=? n)%Z eqn:X1; [|lia]. destruct (n <? 2 ^ 63)%Z eqn:Y1; [|lia]. exists n. split; [reflexivity|]. apply Rabs_lt. lra.
  Qed.
  Lemma back_whole s k : is_finite s = true -> B2R s = IZR k -> (0 <= k)%Z -> (k * M < 2 ^ 52)%Z -> back s = Ok (k * M)%Z.
  Proof.
    intros Fs Hs K0 K1. pose proof M_pos as MP. destruct lit_half as [Hh Fh].
    assert (G : B2R s * IZR M = IZR (k * M)) by (rewrite Hs, mult_IZR; reflexivity). assert (R0 : 0 <= IZR (k * M) <= IZR (2 ^ 52)) by (split; apply IZR_le; lia).
    destruct (mul_ok s lm Fs Fm) as [A B]; [rewrite Hm, G; apply big200; rewrite Rabs_pos_eq by lra; cbn in R0; lra|]. rewrite Hm, G, rnd_exact in A by (apply int_format; lia).
    destruct (add_ok (f64_mul s lm) (literal 5 (-1)) B Fh) as [P Q]; [rewrite A, Hh; apply big200; rewrite Rabs_pos_eq by lra; cbn in R0; lra|]. rewrite A, Hh in P.
    assert (P' : B2R (f64_add (f64_mul s lm) (literal 5 (-1))) = IZR (k * M) + / 2).
    { rewrite P. apply rnd_exact. replace (IZR (k * M) + / 2) with (IZR (2 * (k * M) + 1) * bpow radix2 (- 1)) by (rewrite plus_IZR, mult_IZR; change (bpow radix2 (- 1)) with (/ 2); lra). apply (grid_format (2 * (k * M) + 1) 1); lia. }
    unfold back, to_ll. rewrite Q. rewrite (trunc_between _ (k * M)%Z) by (first [lia|rewrite P'; lra]). destruct (- 2 ^ 63 <=? k * M)%Z eqn:X1; [|lia]. destruct (k * M <? 2 ^ 63)%Z eqn:Y1; [reflexivity|lia].
  Qed.
  (** a double next to n / M gives n *)
  Lemma back_rounded (s : f64) v n : is_finite s = true -> B2R s = rnd v -> (0 <= n < 2 ^ 50)%Z -> v * IZR M = IZR n -> back s = Ok n.
  Proof.
    intros Fs Hs Hn Hv. pose proof M_pos as MP. assert (T : 0 <= IZR n <= 1125899906842624) by (split; [apply IZR_le; lia|apply (IZR_le n (2 ^ 50)); lia]).
    assert (V : v = IZR n / IZR M) by (rewrite <- Hv; field; lra).
    destruct (rel_big v) as (e & He & R1).
    { destruct (Z.eq_dec n 0) as [->|N]; [left; rewrite V; unfold Rdiv; ring|right]. assert (1 <= IZR n) by (apply IZR_le; lia). rewrite Rabs_pos_eq by (rewrite V; apply Rmult_le_pos; [lra|left; apply Rinv_0_lt_compat; lra]).
      rewrite V. apply Rle_trans with (1 / 1073741824); [lra|]. unfold Rdiv. apply Rmult_le_compat; [lra|lra|lra|]. apply Rinv_le; lra. }
    assert (E : B2R s * IZR M = (1 + e) * IZR n) by (rewrite Hs, R1, <- Hv; ring). rewrite u53_eq in He. pose proof (Rabs_le_inv _ _ He) as He'.
    destruct (rel_big (B2R s * IZR M)) as (e2 & H2 & R2).
    { destruct (Z.eq_dec n 0) as [->|N]; [left; rewrite E; ring|right]. rewrite E. assert (1 <= IZR n) by (apply IZR_le; lia). rewrite Rabs_pos_eq by nra. nra. }
    apply (back_near _ n Fs Hn).
    - rewrite E, Rabs_pos_eq by nra. nra.
    - rewrite R2, E. replace ((1 + e) * IZR n * (1 + e2) - IZR n) with (((1 + e) * (1 + e2) - 1) * IZR n) by ring. rewrite Rabs_mult, (Rabs_pos_eq (IZR n)) by lra.
      pose proof (prod_err e e2 _ _ He H2) as P2. rewrite u53_eq in P2. apply Rle_trans with (/ 9007199254740992 * 3 * 1125899906842624); [|lra].
      apply Rmult_le_compat; [apply Rabs_pos|lra| |lra]. eapply Rle_trans; [exact P2|]. lra.
  Qed.
End Conv.

Lemma e0_9 : Rabs (c9 * IZR (10 ^ 9) - 1) <= 3 / 4 * u53.
Proof. unfold c9. rewrite u53_eq. change (bpow radix2 (-82)) with (/ 4835703278458516698824704). apply Rabs_le. cbn. lra. Qed.
Lemma e0_6 : Rabs (c6 * IZR (10 ^ 6) - 1) <= 3 / 4 * u53.
Proof. unfold c6. rewrite u53_eq. change (bpow radix2 (-72)) with (/ 4722366482869645213696). apply Rabs_le. cbn. lra. Qed.

(** * whole seconds *)
Lemma sec_real t : (Z.abs t <= 2 ^ 63)%Z -> B2R (seconds t) = rnd (c9 * rnd (IZR t)) /\ is_finite (seconds t) = true.
Proof. apply (conv_real (literal 1 (-9)) (literal 1 (-9)) c9 (10 ^ 9)%Z); [apply lit_e9|apply lit_e9|lia|exact e0_9]. Qed.
Lemma sec_floor t : (0 <= t < 2 ^ 22 * 10 ^ 9)%Z -> IZR (t / 10 ^ 9) <= B2R (seconds t) < IZR (t / 10 ^ 9) + 1.
Proof.
  intros H. rewrite (proj1 (sec_real t ltac:(lia))), (rnd_exact (IZR t)) by (apply int_format; lia). set (k := (t / 10 ^ 9)%Z).
  assert (K : (0 <= k < 2 ^ 22 /\ k * 10 ^ 9 <= t <= (k + 1) * 10 ^ 9 - 1)%Z).
  { unfold k. pose proof (Z.div_mod t (10 ^ 9) ltac:(lia)). pose proof (Z.mod_pos_bound t (10 ^ 9) ltac:(lia)). split; [split; [apply Z.div_pos; lia|apply Z.div_lt_upper_bound; lia]|]. lia. }
  destruct K as [K0 [K1 K2]]. apply IZR_le in K1, K2. rewrite minus_IZR, !mult_IZR, plus_IZR in *. cbn in K1, K2.
  assert (R : 0 <= IZR k <= 4194303) by (split; apply IZR_le; lia).
  assert (C : c9 = 4835703278458517 * / 4835703278458516698824704) by reflexivity. split.
  - apply rnd_lb; [apply int_format; lia|]. rewrite C. lra.
  - apply Rle_lt_trans with (IZR (2 ^ 31 * (k + 1) - 1) * bpow radix2 (- 31)).
    + apply rnd_ub; [apply (grid_format (2 ^ 31 * (k + 1) - 1) 31); lia|]. rewrite minus_IZR, mult_IZR, plus_IZR. change (bpow radix2 (- 31)) with (/ 2147483648). rewrite C. cbn. lra.
    + rewrite minus_IZR, mult_IZR, plus_IZR. change (bpow radix2 (- 31)) with (/ 2147483648). cbn. lra.
Qed.
Lemma sec_int t : (0 <= t < 2 ^ 22 * 10 ^ 9)%Z -> to_int (seconds t) = Ok (t / 10 ^ 9)%Z.
Proof.
  intros H. unfold to_int. rewrite (proj2 (sec_real t ltac:(lia))). assert (K : (0 <= t / 10 ^ 9 < 2 ^ 22)%Z) by (split; [apply Z.div_pos; lia|apply Z.div_lt_upper_bound; lia]).
  rewrite (trunc_between _ (t / 10 ^ 9)); [|apply K|apply sec_floor, H]. destruct (- 2 ^ 31 <=? t / 10 ^ 9)%Z eqn:X1; [|lia]. destruct (t / 10 ^ 9 <? 2 ^ 31)%Z eqn:X2; [reflexivity|lia].
Qed.
Lemma sec_compare t (hide : f64) h : (0 <= t < 2 ^ 22 * 10 ^ 9)%Z -> is_finite hide = true -> B2R hide = IZR h -> Bleb hide (seconds t) = (h * 10 ^ 9 <=? t)%Z.
Proof.
  intros H F E. unfold Bleb. pose proof (sec_floor t H) as G. destruct (sec_real t) as [_ F2]; [lia|].
  change (Bleb hide (seconds t) = (h * 10 ^ 9 <=? t)%Z). rewrite (Bleb_correct 53 1024 hide (seconds t) F F2), E.
  pose proof (Z.div_mod t (10 ^ 9) ltac:(lia)) as D. pose proof (Z.mod_pos_bound t (10 ^ 9) ltac:(lia)) as B. destruct (h * 10 ^ 9 <=? t)%Z eqn:X.
  - apply Rle_bool_true. apply Rle_trans with (IZR (t / 10 ^ 9)); [apply IZR_le; lia|apply G].
  - apply Rle_bool_false. apply Rlt_le_trans with (IZR (t / 10 ^ 9) + 1); [apply G|]. rewrite <- plus_IZR. apply IZR_le. lia.
Qed.

(** * texts *)
Lemma all_below (P : Z -> bool) n : forallb (fun i => P (Z.of_nat i)) (seq 0 n) = true -> forall z, (0 <= z < Z.of_nat n)%Z -> P z = true.
Proof. intros H z Hz. rewrite forallb_forall in H. rewrite <- (Z2Nat.id z) by lia. apply H. apply in_seq. lia. Qed.
Lemma pad_two z : (0 <= z < 100)%Z -> two_digits (pad_int 2 z) z.
Proof.
  intros H. destruct (pad_int_ok 2 z) as (_ & A & _); [lia|].
  assert (G := all_below (fun z => Nat.eqb (length (pad_int 2 z)) 2 && Z.eqb (decimal_value (pad_int 2 z)) z)%bool 100 ltac:(vm_compute; reflexivity) z H).
  apply andb_true_iff in G. destruct G as [G1 G2]. split; [apply Nat.eqb_eq, G1|split; [exact A|apply Z.eqb_eq, G2]].
Qed.
Lemma plain_string z : (0 <= z)%Z -> plain_number (to_string z) z.
Proof.
  intros H. destruct (Z.eq_dec z 0) as [->|N].
  - split; [discriminate|]. split; [constructor; [vm_compute; split; lia|constructor]|]. split; [reflexivity|left; reflexivity].
  - destruct (to_string_pos z) as (A & B & C & D); [lia|]. split; [exact D|split; [exact A|split; [exact B|right; exact C]]].
Qed.
Lemma short_string z d : (0 <= z < 10 ^ Z.of_nat d)%Z -> (0 < d)%nat -> (length (to_string z) <= d)%nat.
Proof.
  intros H D. destruct (Z.eq_dec z 0) as [->|N]; [cbn; lia|]. destruct (to_string_pos z) as (A & B & C & E); [lia|].
  destruct (to_string z) as [|c r] eqn:T; [cbn; lia|]. rewrite decimal_cons in B. inversion A as [|? ? A1 A2]; subst. pose proof (decimal_bounds r A2) as BB. cbn [hd] in C.
  assert (c1 : (1 <= Z.of_nat (nat_of_ascii c) - 48)%Z).
  { unfold is_digit_char in A1. assert (nat_of_ascii c <> 48%nat); [|lia]. intros X. apply C. rewrite <- (ascii_nat_embedding c), X. reflexivity. }
  cbn [length]. destruct (Nat.le_gt_cases (S (length r)) d) as [L|L]; [exact L|exfalso].
  assert (P : (10 ^ Z.of_nat d <= 10 ^ Z.of_nat (length r))%Z) by (apply Z.pow_le_mono_r; lia). nia.
Qed.
Lemma pad_zero_ok d z : (0 <= z < 10 ^ Z.of_nat d)%Z -> (0 < d)%nat -> length (pad_zero d (to_string z)) = d /\ Forall is_digit_char (pad_zero d (to_string z)) /\ decimal_value (pad_zero d (to_string z)) = z.
Proof.
  intros H D. unfold pad_zero. pose proof (short_string z d H D). destruct (to_string_digits z) as (_ & A & B); [lia|].
  split; [rewrite app_length, repeat_length; lia|]. split; [apply Forall_app; split; [apply zeros_digits|exact A]|rewrite decimal_value_zeros; exact B].
Qed.
Lemma format_ok d k : (0 <= k)%Z -> (0 < d)%nat -> fixed_text k d (format_f d k).
Proof.
  intros K D. assert (P : (0 < 10 ^ Z.of_nat d)%Z) by (apply Z.pow_pos_nonneg; lia). assert (Q := Z.div_pos k _ K P). destruct (pad_zero_ok d (k mod 10 ^ Z.of_nat d)) as (A & B & C); [apply Z.mod_pos_bound, P|exact D|].
  exists (to_string (k / 10 ^ Z.of_nat d)), (pad_zero d (to_string (k mod 10 ^ Z.of_nat d))). split; [reflexivity|]. split; [exact A|]. split; [exact B|]. split; [|apply plain_string, Q].
  rewrite decimal_app, A, C. destruct (to_string_digits _ Q) as (_ & _ & ->). rewrite (Z.div_mod k (10 ^ Z.of_nat d)) at 3 by lia. ring.
Qed.
Lemma format_short d k : (0 <= k < 100 * 10 ^ Z.of_nat d)%Z -> (0 < d <= 250)%nat -> firstn 255 (format_f d k) = format_f d k.
Proof.
  intros K D. assert (P : (0 < 10 ^ Z.of_nat d)%Z) by (apply Z.pow_pos_nonneg; lia). apply firstn_all2. unfold format_f. rewrite app_length. cbn [length].
  destruct (pad_zero_ok d (k mod 10 ^ Z.of_nat d)) as (A & _); [apply Z.mod_pos_bound, P|lia|]. rewrite A. pose proof (short_string (k / 10 ^ Z.of_nat d) 2) as G. 
  assert ((0 <= k / 10 ^ Z.of_nat d < 10 ^ Z.of_nat 2)%Z) by (split; [apply Z.div_pos; lia|apply Z.div_lt_upper_bound; [lia|]; change (10 ^ Z.of_nat 2)%Z with 100%Z; lia]). specialize (G H). lia.
Qed.
Lemma print_ok d (v : f64) : is_finite v = true -> (0 < B2R v \/ v = B754_zero false) -> exists k, print_f d (B2SF v) = format_f d k /\ k = ZnearestE (B2R v * IZR (10 ^ Z.of_nat d)) /\ (0 <= k)%Z.
Proof.
  intros F H. destruct v as [[|]|[|]| |s m e b]; try discriminate F; cbn [B2SF print_f].
  - destruct H as [H|H]; [cbn in H; lra|discriminate H].
  - exists 0%Z. split; [reflexivity|]. split; [|lia]. cbn [B2R]. rewrite Rmult_0_l. symmetry. apply (nearest_Z 0).
  - assert (s = false) as ->. { destruct s; [|reflexivity]. exfalso. destruct H as [H|H]; [|discriminate H]. cbn [B2R] in H. pose proof (F2R_lt_0 radix2 (Float radix2 (cond_Zopp true (Zpos m)) e) ltac:(cbn; lia)). cbn [cond_Zopp] in *. lra. }
    eexists. split; [reflexivity|]. set (k := round_div _ _).
    assert (E : k = ZnearestE (B2R (B754_finite false m e b) * IZR (10 ^ Z.of_nat d))).
    { unfold k. rewrite round_div_nearest by (apply (scale_den_pos radix2); lia). f_equal. rewrite mult_IZR. unfold Rdiv. rewrite Rmult_assoc, (Rmult_comm (IZR (10 ^ _))), <- Rmult_assoc. fold (IZR (scale_num 2 (Zpos m) (- e)) / IZR (scale_den 2 1 (- e))).
      pose proof (scaled radix2 (Zpos m) 1 (- e) ltac:(lia)) as SC. change (radix_val radix2) with 2%Z in SC. rewrite SC. rewrite Z.opp_involutive. cbn [B2R cond_Zopp]. unfold F2R. cbn [Fnum Fexp]. field. }
    split; [exact E|]. rewrite E. rewrite <- (nearest_Z 0). apply Zrnd_le; [apply valid_rnd_N|]. apply Rmult_le_pos; [|apply IZR_le, Z.pow_nonneg; lia]. cbn [B2R]. apply F2R_ge_0. cbn. lia.
Qed.
Lemma half_near x : Rabs (IZR (ZnearestE x) - x) <= / 2.
Proof. rewrite Rabs_minus_sym. apply Znearest_half. Qed.
Lemma sec_sign t : (0 <= t < 2 ^ 22 * 10 ^ 9)%Z -> 0 < B2R (seconds t) \/ seconds t = B754_zero false.
Proof.
  intros H. destruct (Z.eq_dec t 0) as [->|N]; [right; vm_compute; reflexivity|left]. rewrite (proj1 (sec_real t ltac:(lia))), (rnd_exact (IZR t)) by (apply int_format; lia).
  assert (T : 1 <= IZR t) by (apply IZR_le; lia). assert (C : c9 = 4835703278458517 * / 4835703278458516698824704) by reflexivity.
  apply Rlt_le_trans with (bpow radix2 (-30)); [apply bpow_gt_0|]. apply rnd_lb; [apply generic_format_bpow; unfold fexp, emin; lia|]. change (bpow radix2 (-30)) with (/ 1073741824). rewrite C. lra.
Qed.
Lemma sec_text t d : (0 <= t < 60 * 10 ^ 9)%Z -> (0 < d <= 9)%nat -> exists k, (0 <= k)%Z /\ fixed_text k d (stringf_f d (seconds t)) /\ decimal_near t k d.
Proof.
  intros H D. destruct (print_ok d (seconds t)) as (k & E & K & K0); [apply sec_real; lia|apply sec_sign; lia|].
  pose proof (half_near (B2R (seconds t) * IZR (10 ^ Z.of_nat d))) as N. rewrite <- K in N. apply Rabs_le_inv in N.
  pose proof (sec_floor t ltac:(lia)) as F. assert (Q : (t / 10 ^ 9 < 60)%Z) by (apply Z.div_lt_upper_bound; lia). assert (Q' : IZR (t / 10 ^ 9) + 1 <= 60) by (rewrite <- plus_IZR; apply IZR_le; lia).
  assert (P : (0 < 10 ^ Z.of_nat d)%Z) by (apply Z.pow_pos_nonneg; lia). assert (P' : 1 <= IZR (10 ^ Z.of_nat d)) by (apply IZR_le; lia).
  assert (B : (k < 100 * 10 ^ Z.of_nat d)%Z) by (apply lt_IZR; rewrite mult_IZR; nra).
  exists k. split; [exact K0|]. split; [unfold stringf_f; rewrite E, format_short by lia; apply format_ok; lia|].
  assert (C := conv_close (literal 1 (-9)) (literal 1 (-9)) c9 (10 ^ 9) (proj1 lit_e9) (proj2 lit_e9) ltac:(lia) e0_9 t ltac:(lia)). fold (seconds t) in C.
  change (conv (literal 1 (-9)) t) with (seconds t) in C. rewrite (Rabs_pos_eq (IZR t)) in C by (apply IZR_le; lia).
  assert (T : 0 <= IZR t <= 60000000000) by (split; apply IZR_le; lia). change (bpow radix2 (-51)) with (/ 2251799813685248) in C. change (IZR (10 ^ 9)) with 1000000000 in C. apply Rabs_le_inv in C.
  unfold decimal_near. set (w := (10 ^ (9 - Z.of_nat d))%Z). assert (W : (10 ^ Z.of_nat d * w = 10 ^ 9)%Z) by (unfold w; rewrite <- Z.pow_add_r by lia; f_equal; lia).
  assert (W1 : (1 <= w)%Z) by (unfold w; pose proof (Z.pow_pos_nonneg 10 (9 - Z.of_nat d)); lia).
  apply (f_equal IZR) in W. rewrite mult_IZR in W. change (IZR (10 ^ 9)) with 1000000000 in W. assert (W1' : 1 <= IZR w) by (apply IZR_le, W1).
  assert (X : - / 2 * IZR w <= IZR k * IZR w - B2R (seconds t) * 1000000000 <= / 2 * IZR w).
  { rewrite <- W. split; nra. }
  apply Z.lt_succ_r, lt_IZR. rewrite succ_IZR, mult_IZR, abs_IZR, minus_IZR, mult_IZR. assert (Y : Rabs (IZR k * IZR w - IZR t) <= / 2 * IZR w + / 10); [|lra]. apply Rabs_le. lra.
Qed.
(** the default: one number of three decimals below ten seconds *)
Lemma clock_ok n : (0 <= n)%Z -> exists c, clock_text n c /\
  (60 <= n -> c = (let h := n / 3600 in let r := n mod 3600 in (if 0 <? h then to_string h ++ ":"%char :: pad_int 2 (r / 60) else to_string (r / 60)) ++ ":"%char :: pad_int 2 (r mod 60)))%Z /\ (n < 60 -> c = lit "0:" ++ pad_int 2 n)%Z.
Proof.
  intros H. pose proof (Z.div_mod n 3600 ltac:(lia)) as A. pose proof (Z.mod_pos_bound n 3600 ltac:(lia)) as B. pose proof (Z.div_pos n 3600 ltac:(lia) ltac:(lia)) as A0. set (h := (n / 3600)%Z) in *. set (r := (n mod 3600)%Z) in *.
  pose proof (Z.div_mod r 60 ltac:(lia)) as C. pose proof (Z.mod_pos_bound r 60 ltac:(lia)) as D. assert (M : (0 <= r / 60 < 60)%Z) by (split; [apply Z.div_pos; lia|apply Z.div_lt_upper_bound; lia]).
  destruct (Z.lt_ge_cases n 60) as [L|L].
  - exists (lit "0:" ++ pad_int 2 n). split; [|split; [lia|reflexivity]]. change n with (60 * 0 + n)%Z at 1. change (lit "0:" ++ pad_int 2 n) with (to_string 0 ++ ":"%char :: pad_int 2 n). apply clock_minutes; [lia|lia|apply plain_string; lia|apply pad_two; lia].
  - destruct (0 <? h)%Z eqn:Hh.
    + exists (to_string h ++ ":"%char :: pad_int 2 (r / 60) ++ ":"%char :: pad_int 2 (r mod 60)). split; [|split; [intros _; cbv zeta; rewrite Hh, <- app_assoc; reflexivity|lia]].
      replace n with (3600 * h + 60 * (r / 60) + r mod 60)%Z by lia. apply clock_hours; [lia|lia|lia|apply plain_string; lia|apply pad_two; lia|apply pad_two; lia].
    + exists (to_string (r / 60) ++ ":"%char :: pad_int 2 (r mod 60)). split; [|split; [intros _; cbv zeta; rewrite Hh; reflexivity|lia]].
      replace n with (60 * (r / 60) + r mod 60)%Z by lia. apply clock_minutes; [lia|lia|apply plain_string; lia|apply pad_two; lia].
Qed.
Lemma text_clock t decimals (hide : f64) h : (0 <= t < 2 ^ 22 * 10 ^ 9)%Z -> is_finite hide = true -> B2R hide = IZR h ->
  (60 * 10 ^ 9 <= t \/ decimals <= 0 \/ h * 10 ^ 9 <= t)%Z -> exists s, time_to_str t decimals hide = Ok s /\ clock_text (t / 10 ^ 9) s.
Proof.
  intros H F E G. set (n := (t / 10 ^ 9)%Z). assert (N : (0 <= n < 2 ^ 22)%Z) by (unfold n; split; [apply Z.div_pos; lia|apply Z.div_lt_upper_bound; lia]).
  destruct (clock_ok n) as (c & C1 & C2 & C3); [lia|]. exists c. split; [|exact C1]. unfold time_to_str. rewrite (sec_int t H), (sec_compare t hide h H F E). fold n. cbn [obind].
  rewrite (Z.quot_div_nonneg n 3600) by lia. pose proof (Z.div_pos n 3600 ltac:(lia) ltac:(lia)) as A0. pose proof (Z.div_mod n 3600 ltac:(lia)) as A. pose proof (Z.mod_pos_bound n 3600 ltac:(lia)) as B.
  assert (X : (if 0 <? n / 3600 then n - n / 3600 * 3600 else n)%Z = (n mod 3600)%Z) by (destruct (0 <? n / 3600)%Z eqn:Q; [lia|]; assert (n / 3600 = 0)%Z by lia; lia).
  rewrite X. rewrite (Z.quot_div_nonneg (n mod 3600) 60) by lia. pose proof (Z.div_mod (n mod 3600) 60 ltac:(lia)) as CC. pose proof (Z.mod_pos_bound (n mod 3600) 60 ltac:(lia)) as DD.
  pose proof (Z.div_pos (n mod 3600) 60 ltac:(lia) ltac:(lia)) as M0.
  destruct (Z.lt_ge_cases n 60) as [L|L].
  - assert (Z1 : (n / 3600 = 0)%Z) by (apply Z.div_small; lia). assert (Z2 : (n mod 3600 = n)%Z) by (apply Z.mod_small; lia). rewrite Z2. assert (Z3 : (n / 60 = 0)%Z) by (apply Z.div_small; lia). rewrite Z1, Z3. cbn [Z.ltb Z.compare orb List.app].
    assert (Y : ((decimals <=? 0) || (h * 10 ^ 9 <=? t))%bool%Z = true).
    { pose proof (Z.div_mod t (10 ^ 9) ltac:(lia)). pose proof (Z.mod_pos_bound t (10 ^ 9) ltac:(lia)). fold n in H0. lia. }
    rewrite Y, (C3 L). reflexivity.
  - assert (Y : ((0 <? n / 3600) || (0 <? n mod 3600 / 60))%bool%Z = true).
    { destruct (0 <? n / 3600)%Z eqn:Q; [reflexivity|]. assert (n / 3600 = 0)%Z by lia. assert (1 <= n mod 3600 / 60)%Z by (apply Z.div_le_lower_bound; lia). cbn [orb]. lia. }
    rewrite Y, (C2 L). cbv zeta. replace (n mod 3600 - n mod 3600 / 60 * 60)%Z with ((n mod 3600) mod 60)%Z by lia. f_equal. destruct (0 <? n / 3600)%Z eqn:Q.
    + destruct (to_string_digits (n / 3600) A0) as (NE & _). destruct (to_string (n / 3600)) as [|a l]; [contradiction|]. cbn [List.app lit list_ascii_of_string]. rewrite <- !app_assoc. reflexivity.
    + cbn [List.app]. rewrite <- !app_assoc. reflexivity.
Qed.
Lemma text_fixed t d (hide : f64) h : (0 <= t < 60 * 10 ^ 9)%Z -> is_finite hide = true -> B2R hide = IZR h -> (0 < d <= 9)%nat -> (t < h * 10 ^ 9)%Z ->
  exists s k, time_to_str t (Z.of_nat d) hide = Ok s /\ (0 <= k)%Z /\ fixed_text k d s /\ decimal_near t k d.
Proof.
  intros H F E D G. set (n := (t / 10 ^ 9)%Z). assert (N : (0 <= n < 60)%Z) by (unfold n; split; [apply Z.div_pos; lia|apply Z.div_lt_upper_bound; lia]).
  destruct (sec_text t d H D) as (k & K0 & K1 & K2). exists (stringf_f d (seconds t)), k. split; [|split; [exact K0|split; assumption]].
  unfold time_to_str. rewrite (sec_int t ltac:(lia)), (sec_compare t hide h ltac:(lia) F E). fold n. cbn [obind]. rewrite (Z.quot_small n 3600) by lia. cbv zeta. cbn [Z.ltb Z.compare orb List.app]. 
  assert (Q1 : (Z.quot n 60 = 0)%Z) by (apply Z.quot_small; lia). rewrite ?Q1. cbn [Z.ltb Z.compare orb List.app].
  assert (Y : ((Z.of_nat d <=? 0) || (h * 10 ^ 9 <=? t))%bool%Z = false) by lia. rewrite Y, Nat2Z.id. reflexivity.
Qed.
(** ** reading back *)
Lemma fixed_decimal k d s : fixed_text k d s -> (0 <= k)%Z -> decimal_text s 1 (IZR k * powerRZ 10 (0 - Z.of_nat d)).
Proof.
  intros (ip & fp & -> & L & F & V & N & DI & _) K. rewrite <- V, <- L. pose proof (decimal [] 1 ip ["."%char] fp [] 0 sign_none DI F ltac:(destruct ip; [contradiction|discriminate]) (or_introl eq_refl) exponent_none) as G.
  cbn [List.app] in G. rewrite app_nil_r in G. exact G.
Qed.
Lemma read_fixed k d s v : fixed_text k d s -> (0 <= k)%Z -> (d <= 9)%nat -> (k * 10 ^ (9 - Z.of_nat d) < 2 ^ 50)%Z -> time_from_str s v = Ok (k * 10 ^ (9 - Z.of_nat d), true)%Z.
Proof.
  intros T K D B. pose proof (fixed_decimal k d s T K) as G. destruct (read_decimal f_double [] s 1 _ [] usable_double ltac:(constructor) G I) as (A & V0 & W & _ & X). cbn [List.app] in A, W, X. rewrite app_nil_r in A, W, X.
  unfold time_from_str. destruct (from_str_float f_double s) as [y ok]. cbn [fst snd] in A, W, X. subst ok. cbn [Z.ltb Z.compare] in X. set (w := IZR k * powerRZ 10 (0 - Z.of_nat d)) in *.
  assert (P : (0 < 10 ^ (9 - Z.of_nat d))%Z) by (apply Z.pow_pos_nonneg; lia).
  assert (WM : w * IZR (10 ^ 9) = IZR (k * 10 ^ (9 - Z.of_nat d))).
  { unfold w. rewrite mult_IZR, Rmult_assoc. f_equal. rewrite p10. change 10%Z with (radix_val radix10). rewrite !IZR_Zpower by lia. rewrite <- bpow_plus. f_equal. lia. }
  assert (KB : 0 <= IZR (k * 10 ^ (9 - Z.of_nat d)) <= 1125899906842624) by (split; [apply IZR_le; nia|apply (IZR_le _ (2 ^ 50)); lia]).
  change (IZR (10 ^ 9)) with 1000000000 in WM. assert (WB : 0 <= w <= 1125899906842624) by lra.
  change (rnd2 f_double w) with (rnd w) in X.
  assert (RB : rnd w < bpow radix2 1024). { apply Rle_lt_trans with (bpow radix2 50); [|apply bpow_lt; lia]. apply rnd_ub; [apply generic_format_bpow; unfold fexp, emin; lia|]. change (bpow radix2 50) with 1125899906842624. lra. }
  destruct X as [(_ & X1 & X2)|(X & _)]; [|exfalso; cbn [top f_double] in X; lra].
  destruct (sf_real y W) as [S1 S2]. change (time_from_seconds (sf64 y)) with (back (literal 1 9) (sf64 y)).
  rewrite (back_rounded (literal 1 9) (literal 1 9) (10 ^ 9) (proj1 lit_9) (proj2 lit_9) ltac:(lia) (sf64 y) w (k * 10 ^ (9 - Z.of_nat d))); [reflexivity|apply S2, X1|rewrite S1; exact X2|split; [nia|exact B]|exact WM].
Qed.
Lemma lit_10 : B2R (literal 10 0) = 10 /\ is_finite (literal 10 0) = true.
Proof.
  unfold literal. assert (E : round_scaled f_double false 10 10 0 = S754_finite false 5629499534213120 (-49)) by (vm_compute; reflexivity). rewrite E.
  destruct (sf_real (S754_finite false 5629499534213120 (-49)) eq_refl) as [A B]. split; [rewrite A; unfold value; rewrite p2; cbn; lra|apply B; exact I].
Qed.
