(** Rounding of fractions to decimal and binary formats is the rounding of Flocq. *)
From Coq Require Import List Arith Bool ZArith Reals SpecFloat Lia Lra Psatz.
From Flocq Require Import Core IEEE754.BinarySingleNaN.
From Verif Require Import Base FltSpec FltModel.
Local Open Scope Z_scope.

Lemma round_div_nearest n d : 0 < d -> round_div n d = ZnearestE (IZR n / IZR d).
Proof.
  intros D. unfold round_div, Znearest.
  assert (Dr : (0 < IZR d)%R) by (apply IZR_lt; exact D).
  rewrite (Zfloor_div n d) by lia.
  assert (E : (IZR n / IZR d - IZR (n / d) = IZR (n mod d) / IZR d)%R).
  { rewrite (Z.div_mod n d) at 1 by lia. rewrite plus_IZR, mult_IZR. field. lra. }
  rewrite E.
  assert (C : Zceil (IZR n / IZR d) = n / d + 1 \/ n mod d = 0).
  { destruct (Z.eq_dec (n mod d) 0) as [Z0|Z0]; [right; exact Z0|left]. rewrite Zceil_floor_neq; rewrite (Zfloor_div n d) by lia; [reflexivity|].
    intros Q. rewrite Q in E. rewrite Rminus_diag_eq in E by reflexivity. symmetry in E. apply (f_equal (fun x => x * IZR d)%R) in E. field_simplify in E; [|lra]. apply (eq_IZR _ 0) in E. congruence. }
  assert (K : Rcompare (IZR (n mod d) / IZR d) (/ 2) = Z.compare (2 * (n mod d)) d).
  { rewrite <- (Rcompare_mult_r (2 * IZR d)) by lra. replace (IZR (n mod d) / IZR d * (2 * IZR d))%R with (IZR (2 * (n mod d))) by (rewrite mult_IZR; field; lra).
    replace (/ 2 * (2 * IZR d))%R with (IZR d) by field. apply Rcompare_IZR. }
  rewrite K. pose proof (Z.mod_pos_bound n d D) as M. destruct (Z.compare_spec (2 * (n mod d)) d) as [Q|Q|Q]; [|reflexivity|].
  - destruct C as [C|C]; [|lia]. rewrite C. destruct (Z.even (n / d)); reflexivity.
  - destruct C as [C|C]; [|lia]. rewrite C. reflexivity.
Qed.

(** scaling by a power of the base *)
Lemma scaled (b : radix) n d e : 0 < d -> (IZR (scale_num b n e) / IZR (scale_den b d e) = IZR n / IZR d * bpow b (- e))%R.
Proof.
  intros D. unfold scale_num, scale_den. rewrite !mult_IZR, !IZR_Zpower by lia. assert (Dr : (0 < IZR d)%R) by (apply IZR_lt; exact D).
  destruct (Z_le_gt_dec 0 e) as [E|E].
  - rewrite (Z.max_l 0 (- e)), (Z.max_r 0 e) by lia. rewrite bpow_opp. change (bpow b 0) with 1%R. field. split; [apply Rgt_not_eq, bpow_gt_0|lra].
  - rewrite (Z.max_r 0 (- e)), (Z.max_l 0 e) by lia. change (bpow b 0) with 1%R. field. lra.
Qed.
Lemma scale_den_pos (b : radix) d e : 0 < d -> 0 < scale_den b d e.
Proof. intros D. unfold scale_den. pose proof (Zpower_gt_0 b (Z.max 0 e) ltac:(lia)). lia. Qed.
Lemma scale_num_pos (b : radix) n e : 0 < n -> 0 < scale_num b n e.
Proof. intros D. unfold scale_num. pose proof (Zpower_gt_0 b (Z.max 0 (- e)) ltac:(lia)). lia. Qed.
Lemma fraction_pos n d : 0 < n -> 0 < d -> (0 < IZR n / IZR d)%R.
Proof. intros N D. apply Rdiv_lt_0_compat; apply IZR_lt; assumption. Qed.

Lemma round_scaled_nearest (b : radix) fexp n d : 0 < n -> 0 < d -> forall e, e = fexp (mag b (IZR n / IZR d) : Z) ->
  round b fexp ZnearestE (IZR n / IZR d) = (IZR (round_div (scale_num b n e) (scale_den b d e)) * bpow b e)%R.
Proof.
  intros N D e E. unfold round, scaled_mantissa, F2R, cexp. cbn [Fnum Fexp]. rewrite <- E. f_equal. f_equal. rewrite round_div_nearest by (apply scale_den_pos; exact D). rewrite scaled by exact D. reflexivity.
Qed.

Lemma cmp_scaled (b : radix) n d k : 0 < d -> (scale_num b n k < scale_den b d k <-> (IZR n / IZR d < bpow b k)%R).
Proof.
  intros D. assert (P := scale_den_pos b d k D). apply IZR_lt in P. split; intros H.
  - apply IZR_lt in H. assert (Q : (IZR (scale_num b n k) / IZR (scale_den b d k) < 1)%R) by (apply Rmult_lt_reg_r with (1 := P); field_simplify; lra).
    rewrite scaled in Q by exact D. rewrite bpow_opp in Q. pose proof (bpow_gt_0 b k). apply Rmult_lt_reg_r with (/ bpow b k)%R; [apply Rinv_0_lt_compat; lra|]. rewrite Rinv_r by lra. exact Q.
  - apply lt_IZR. assert (Q : (IZR (scale_num b n k) / IZR (scale_den b d k) < 1)%R).
    { rewrite scaled by exact D. rewrite bpow_opp. pose proof (bpow_gt_0 b k). apply Rmult_lt_reg_r with (bpow b k); [lra|]. rewrite Rmult_assoc, Rinv_l by lra. lra. }
    apply Rmult_lt_compat_r with (1 := P) in Q. field_simplify in Q; lra.
Qed.

Lemma log2_bounds n d : 0 < n -> 0 < d -> (bpow radix2 (log2_fraction n d) <= IZR n / IZR d < bpow radix2 (log2_fraction n d + 1))%R.
Proof.
  intros N D. pose proof (Z.log2_spec n N) as [N1 N2]. pose proof (Z.log2_spec d D) as [D1 D2]. pose proof (Z.log2_nonneg n). pose proof (Z.log2_nonneg d).
  set (k := Z.log2 n - Z.log2 d). assert (Dr : (0 < IZR d)%R) by (apply IZR_lt; exact D).
  assert (L : (bpow radix2 (k - 1) <= IZR n / IZR d)%R).
  { apply Rmult_le_reg_r with (1 := Dr). unfold Rdiv. rewrite Rmult_assoc, Rinv_l by lra. rewrite Rmult_1_r. apply Rle_trans with (bpow radix2 (k - 1) * bpow radix2 (Z.log2 d + 1))%R.
    - apply Rmult_le_compat_l; [apply bpow_ge_0|]. rewrite <- IZR_Zpower by lia. apply IZR_le. unfold radix2. cbn [radix_val]. lia.
    - rewrite <- bpow_plus. replace (k - 1 + (Z.log2 d + 1)) with (Z.log2 n) by (unfold k; lia). rewrite <- IZR_Zpower by lia. apply IZR_le. exact N1. }
  assert (U : (IZR n / IZR d < bpow radix2 (k + 1))%R).
  { apply Rmult_lt_reg_r with (1 := Dr). unfold Rdiv. rewrite Rmult_assoc, Rinv_l by lra. rewrite Rmult_1_r. apply Rlt_le_trans with (bpow radix2 (Z.log2 n + 1)).
    - rewrite <- IZR_Zpower by lia. apply IZR_lt. unfold radix2. cbn [radix_val]. lia.
    - apply Rle_trans with (bpow radix2 (k + 1) * bpow radix2 (Z.log2 d))%R; [rewrite <- bpow_plus; apply bpow_le; unfold k; lia|]. apply Rmult_le_compat_l; [apply bpow_ge_0|]. rewrite <- IZR_Zpower by lia. apply IZR_le. exact D1. }
  unfold log2_fraction. fold k. destruct (Z.ltb_spec (scale_num 2 n k) (scale_den 2 d k)) as [C|C].
  - apply (cmp_scaled radix2) in C; [|exact D]. replace (k - 1 + 1) with k by lia. split; assumption.
  - split; [|exact U]. apply Rnot_lt_le. intros Q. apply (cmp_scaled radix2) in Q; [|exact D]. change (radix_val radix2) with 2 in Q. lia.
Qed.
Lemma mag2 n d : 0 < n -> 0 < d -> (mag radix2 (IZR n / IZR d) : Z) = log2_fraction n d + 1.
Proof. intros N D. apply mag_unique_pos. replace (log2_fraction n d + 1 - 1) with (log2_fraction n d) by lia. apply log2_bounds; assumption. Qed.

Definition radix10 : radix := Build_radix 10 eq_refl.
Lemma count_digits_ok fuel : forall z, 0 < z -> z < 2 ^ (Z.of_nat fuel + 1) -> 1 <= count_digits fuel z /\ 10 ^ (count_digits fuel z - 1) <= z < 10 ^ count_digits fuel z.
Proof.
  induction fuel as [|f IH]; intros z P L; cbn [count_digits]; [change (2 ^ (Z.of_nat 0 + 1)) with 2 in L; lia|].
  destruct (Z.ltb_spec z 10) as [T|T]; [cbn; lia|].
  destruct (IH (z / 10)) as (H1 & H2 & H3).
  - apply Z.div_str_pos. lia.
  - apply Z.div_lt_upper_bound; [lia|]. replace (Z.of_nat (S f) + 1) with (1 + (Z.of_nat f + 1)) in L by lia. rewrite Z.pow_add_r in L by lia. change (2 ^ 1) with 2 in L. pose proof (Z.pow_pos_nonneg 2 (Z.of_nat f + 1) ltac:(lia) ltac:(lia)). lia.
  - split; [lia|]. pose proof (Z.div_mod z 10 ltac:(lia)) as E. pose proof (Z.mod_pos_bound z 10 ltac:(lia)).
    set (c := count_digits f (z / 10)) in *. replace (1 + c - 1) with (1 + (c - 1)) by lia. rewrite !Z.pow_add_r by lia. change (10 ^ 1) with 10. lia.
Qed.
Lemma digits10_ok z : 0 < z -> 1 <= digits10 z /\ 10 ^ (digits10 z - 1) <= z < 10 ^ digits10 z.
Proof. intros P. apply count_digits_ok; [exact P|]. pose proof (Z.log2_nonneg z). rewrite Z2Nat.id by lia. apply Z.log2_spec. exact P. Qed.
Lemma log10_bounds n d : 0 < n -> 0 < d -> (bpow radix10 (log10_fraction n d) <= IZR n / IZR d < bpow radix10 (log10_fraction n d + 1))%R.
Proof.
  intros N D. assert (Nr : (0 < IZR n)%R) by (apply IZR_lt; exact N). assert (Dr : (0 < IZR d)%R) by (apply IZR_lt; exact D). unfold log10_fraction. destruct (Z.leb_spec d n) as [C|C].
  - destruct (digits10_ok (n / d)) as (H1 & H2 & H3); [apply Z.div_str_pos; lia|]. set (k := digits10 (n / d)) in *. replace (k - 1 + 1) with k by lia.
    pose proof (Z.div_mod n d ltac:(lia)). pose proof (Z.mod_pos_bound n d D). rewrite <- !IZR_Zpower by lia. change (radix_val radix10) with 10.
    split; [apply Rmult_le_reg_r with (1 := Dr)|apply Rmult_lt_reg_r with (1 := Dr)]; unfold Rdiv; rewrite Rmult_assoc, Rinv_l, Rmult_1_r by lra; rewrite <- mult_IZR; [apply IZR_le|apply IZR_lt]; nia.
  - destruct (digits10_ok ((d - 1) / n)) as (H1 & H2 & H3); [apply Z.div_str_pos; lia|]. set (k := digits10 ((d - 1) / n)) in *.
    pose proof (Z.div_mod (d - 1) n ltac:(lia)). pose proof (Z.mod_pos_bound (d - 1) n N). replace (- k + 1) with (- (k - 1)) by lia. rewrite !bpow_opp, <- !IZR_Zpower by lia. change (radix_val radix10) with 10.
    assert (P1 : (0 < IZR (10 ^ k))%R) by (apply IZR_lt; lia). assert (P2 : (0 < IZR (10 ^ (k - 1)))%R) by (apply IZR_lt; lia).
    split.
    + apply Rmult_le_reg_r with (IZR d * IZR (10 ^ k))%R; [nra|]. replace (/ IZR (10 ^ k) * (IZR d * IZR (10 ^ k)))%R with (IZR d) by (field; lra). replace (IZR n / IZR d * (IZR d * IZR (10 ^ k)))%R with (IZR (n * 10 ^ k)) by (rewrite mult_IZR; field; lra). apply IZR_le. nia.
    + apply Rmult_lt_reg_r with (IZR d * IZR (10 ^ (k - 1)))%R; [nra|]. replace (/ IZR (10 ^ (k - 1)) * (IZR d * IZR (10 ^ (k - 1))))%R with (IZR d) by (field; lra). replace (IZR n / IZR d * (IZR d * IZR (10 ^ (k - 1))))%R with (IZR (n * 10 ^ (k - 1))) by (rewrite mult_IZR; field; lra). apply IZR_lt. nia.
Qed.
Lemma mag10 n d : 0 < n -> 0 < d -> (mag radix10 (IZR n / IZR d) : Z) = log10_fraction n d + 1.
Proof. intros N D. apply mag_unique_pos. replace (log10_fraction n d + 1 - 1) with (log10_fraction n d) by lia. apply log10_bounds; assumption. Qed.

(** ** rounding to a binary format *)
Definition usable (f : format) : Prop := 1 < bits f /\ bits f < top f.
Lemma usable_double : usable f_double. Proof. split; reflexivity. Qed.
Lemma usable_float : usable f_float. Proof. split; reflexivity. Qed.
Definition rnd2 (f : format) (v : R) : R := round radix2 (FLT_exp (bottom f) (bits f)) ZnearestE v.

Lemma p2 e : powerRZ 2 e = bpow radix2 e.
Proof. symmetry. apply (bpow_powerRZ radix2). Qed.
Lemma p10 e : powerRZ 10 e = bpow radix10 e.
Proof. symmetry. apply (bpow_powerRZ radix10). Qed.
Lemma nearest_Z n : ZnearestE (IZR n) = n.
Proof. destruct (valid_rnd_N (fun x => negb (Z.even x))) as [_ H]. apply H. Qed.
Section Binary.
  Context (f : format) (U : usable f).
  Let fexp := FLT_exp (bottom f) (bits f).
  Local Instance prec_pos : Prec_gt_0 (bits f).
  Proof. destruct U. unfold Prec_gt_0. lia. Qed.
  Local Instance prec_top : Prec_lt_emax (bits f) (top f).
  Proof. destruct U. unfold Prec_lt_emax. lia. Qed.
  Local Instance fexp_valid : Valid_exp fexp.
  Proof. apply FLT_exp_valid, prec_pos. Qed.
  Local Instance fexp_mono : Monotone_exp fexp.
  Proof. apply FLT_exp_monotone. Qed.
  Local Instance fexp_even : Exists_NE radix2 fexp.
  Proof. apply exists_NE_FLT. right. apply U. Qed.

  Lemma value_SF x : value x = SF2R radix2 x.
  Proof. destruct x as [s|s| |s m e]; try reflexivity. unfold value, SF2R, F2R. cbn [Fnum Fexp]. rewrite p2. destruct s; cbn [cond_Zopp]; [rewrite <- opp_IZR|]; reflexivity. Qed.
  Lemma value_format x : of_format f x -> generic_format radix2 fexp (value x).
  Proof. intros H. rewrite value_SF, <- (B2R_SF2B _ _ x H). apply (generic_format_B2R (bits f) (top f)). Qed.
  Lemma abs_format x : of_format f x -> generic_format radix2 fexp (Rabs (value x)).
  Proof. intros H. apply generic_format_abs, value_format, H. Qed.
  Lemma abs_value s m e : Rabs (value (S754_finite s m e)) = F2R (Float radix2 (Zpos m) e).
  Proof.
    unfold value, F2R. cbn [Fnum Fexp]. rewrite p2. rewrite Rabs_mult, (Rabs_pos_eq (bpow radix2 e)) by apply bpow_ge_0. f_equal.
    assert (0 < IZR (Zpos m))%R by (apply IZR_lt; lia). destruct s; [rewrite Rabs_Ropp|]; apply Rabs_pos_eq; lra.
  Qed.
  Lemma valid_intro s m e : bottom f <= e -> e <= top f - bits f -> Zpos m < 2 ^ bits f -> (2 ^ (bits f - 1) <= Zpos m \/ e = bottom f) -> of_format f (S754_finite s m e).
  Proof.
    intros E1 E2 M C. unfold of_format, valid_binary, bounded, canonical_mantissa, SpecFloat.fexp. apply andb_true_intro. split; [|apply Z.leb_le; exact E2].
    apply Zeq_is_eq_bool. rewrite Zpos_digits2_pos. change (emin (bits f) (top f)) with (bottom f). destruct U as [U1 _]. destruct (Z_le_gt_dec (2 ^ (bits f - 1)) (Zpos m)) as [G|G].
    - rewrite (Zdigits_unique radix2 (Zpos m) (bits f)) by (rewrite Z.abs_eq by lia; split; assumption). lia.
    - destruct C as [C|C]; [lia|]. assert (D : Zdigits radix2 (Zpos m) <= bits f - 1) by (apply Zdigits_le_Zpower; change (radix_val radix2) with 2; rewrite Z.abs_eq by lia; lia). lia.
  Qed.

  Lemma round_fraction_ok neg n d : 0 < n -> 0 < d -> let y := round_fraction f neg n d in let r := rnd2 f (IZR n / IZR d) in
    of_format f y /\ negative y = neg /\
    ((r < bpow radix2 (top f))%R /\ finite y /\ value y = (if neg then - r else r)%R \/ (bpow radix2 (top f) <= r)%R /\ y = S754_infinity neg).
  Proof.
    intros N D. cbn zeta. assert (V := fraction_pos n d N D). destruct U as [U1 U2].
    set (v := (IZR n / IZR d)%R) in *. set (l := log2_fraction n d). set (e := Z.max (bottom f) (l - (bits f - 1))).
    assert (M : (mag radix2 v : Z) = l + 1) by (apply mag2; assumption).
    assert (E : e = fexp (mag radix2 v : Z)) by (rewrite M; unfold fexp, FLT_exp, e; lia).
    assert (R : rnd2 f v = (IZR (round_div (scale_num 2 n e) (scale_den 2 d e)) * bpow radix2 e)%R) by (apply (round_scaled_nearest radix2 fexp); assumption).
    set (m := round_div (scale_num 2 n e) (scale_den 2 d e)) in *.
    destruct (log2_bounds n d N D) as [B1 B2]. fold v in B1, B2. fold l in B1, B2.
    assert (Mn : m = ZnearestE (v * bpow radix2 (- e))).
    { unfold m. change 2 with (radix_val radix2). rewrite round_div_nearest by (apply scale_den_pos; exact D). rewrite scaled by exact D. reflexivity. }
    assert (M0 : 0 <= m).
    { rewrite Mn. rewrite <- (nearest_Z 0). apply Zrnd_le; [apply valid_rnd_N|]. apply Rmult_le_pos; [lra|apply bpow_ge_0]. }
    assert (M1 : m <= 2 ^ bits f).
    { rewrite Mn. rewrite <- (nearest_Z (2 ^ bits f)). apply Zrnd_le; [apply valid_rnd_N|]. change 2 with (radix_val radix2). rewrite IZR_Zpower by lia.
      apply Rle_trans with (bpow radix2 (l + 1) * bpow radix2 (- e))%R; [apply Rmult_le_compat_r; [apply bpow_ge_0|lra]|]. rewrite <- bpow_plus. apply bpow_le. unfold e. lia. }
    assert (M2 : bottom f < e -> 2 ^ (bits f - 1) <= m).
    { intros G. rewrite Mn. rewrite <- (nearest_Z (2 ^ (bits f - 1))). apply Zrnd_le; [apply valid_rnd_N|]. change 2 with (radix_val radix2). rewrite IZR_Zpower by lia.
      apply Rle_trans with (bpow radix2 l * bpow radix2 (- e))%R; [|apply Rmult_le_compat_r; [apply bpow_ge_0|lra]]. rewrite <- bpow_plus. apply bpow_le. unfold e in *. lia. }
    assert (fin : forall m' e', (IZR m * bpow radix2 e = IZR m' * bpow radix2 e')%R -> bottom f <= e' -> 0 < m' < 2 ^ bits f -> (2 ^ (bits f - 1) <= m' \/ e' = bottom f) ->
      let y := if top f - bits f <? e' then S754_infinity neg else S754_finite neg (Z.to_pos m') e' in
      of_format f y /\ negative y = neg /\ ((rnd2 f v < bpow radix2 (top f))%R /\ finite y /\ value y = (if neg then - rnd2 f v else rnd2 f v)%R \/ (bpow radix2 (top f) <= rnd2 f v)%R /\ y = S754_infinity neg)).
    { intros m' e' Q Le Lm C. cbn zeta. rewrite R, Q. assert (U3 : bottom f < top f - bits f) by (unfold bottom; lia). destruct (Z.ltb_spec (top f - bits f) e') as [G|G].
      - split; [reflexivity|]. split; [reflexivity|]. right. split; [|reflexivity]. destruct C as [C|C]; [|lia].
        apply Rle_trans with (bpow radix2 (bits f - 1) * bpow radix2 e')%R; [rewrite <- bpow_plus; apply bpow_le; lia|]. apply Rmult_le_compat_r; [apply bpow_ge_0|]. rewrite <- IZR_Zpower by lia. apply IZR_le. exact C.
      - split; [apply valid_intro; rewrite ?Z2Pos.id by lia; lia|]. split; [reflexivity|]. left. split; [|split; [exact I|]].
        + apply Rlt_le_trans with (bpow radix2 (bits f) * bpow radix2 e')%R; [|rewrite <- bpow_plus; apply bpow_le; lia]. apply Rmult_lt_compat_r; [apply bpow_gt_0|]. rewrite <- IZR_Zpower by lia. apply IZR_lt. apply Lm.
        + unfold value. rewrite Z2Pos.id by lia. rewrite p2. destruct neg; [ring|reflexivity]. }
    unfold round_fraction. fold l. fold e. fold m. destruct (Z.eqb_spec m 0) as [Z0|Z0].
    - split; [reflexivity|]. split; [reflexivity|]. left. rewrite R, Z0, Rmult_0_l. split; [apply bpow_gt_0|]. split; [exact I|]. cbn [value]. destruct neg; lra.
    - destruct (Z.eqb_spec m (2 ^ bits f)) as [T|T].
      + apply fin; [|unfold e; lia| |left; lia].
        * rewrite T. change 2 with (radix_val radix2). rewrite !IZR_Zpower by lia. rewrite <- !bpow_plus. f_equal. lia.
        * assert (2 ^ bits f = 2 * 2 ^ (bits f - 1)) by (rewrite <- Z.pow_succ_r by lia; f_equal; lia). pose proof (Z.pow_pos_nonneg 2 (bits f - 1) ltac:(lia) ltac:(lia)). lia.
      + apply fin; [reflexivity|unfold e; lia|lia|]. destruct (Z.eq_dec e (bottom f)) as [Q|Q]; [right; exact Q|left; apply M2; unfold e in *; lia].
  Qed.

  (** the overflow threshold *)
  Lemma threshold_eq : overflow_threshold f = (bpow radix2 (top f) - bpow radix2 (top f - bits f - 1))%R.
  Proof. unfold overflow_threshold. rewrite !p2. reflexivity. Qed.
  Let biggest : R := (bpow radix2 (top f) - bpow radix2 (top f - bits f))%R.
  Lemma biggest_F2R : biggest = F2R (Float radix2 (2 ^ bits f - 1) (top f - bits f)).
  Proof.
    destruct U. unfold biggest, F2R. cbn [Fnum Fexp]. rewrite minus_IZR. change 2 with (radix_val radix2). rewrite IZR_Zpower by lia. rewrite Rmult_minus_distr_r, <- bpow_plus, Rmult_1_l. do 2 f_equal. lia.
  Qed.
  Lemma mag_biggest : (mag radix2 biggest : Z) = top f.
  Proof.
    destruct U. apply mag_unique_pos. unfold biggest. split.
    - replace (top f) with (1 + (top f - 1)) at 2 by lia. rewrite (bpow_plus radix2 1). change (bpow radix2 1) with 2%R. assert (bpow radix2 (top f - bits f) <= bpow radix2 (top f - 1))%R by (apply bpow_le; lia). lra.
    - pose proof (bpow_gt_0 radix2 (top f - bits f)). lra.
  Qed.
  Lemma biggest_format : generic_format radix2 fexp biggest.
  Proof.
    destruct U. apply generic_format_FLT. exists (Float radix2 (2 ^ bits f - 1) (top f - bits f)); [apply biggest_F2R| |].
    - cbn [Fnum]. change (radix_val radix2) with 2. pose proof (Z.pow_pos_nonneg 2 (bits f) ltac:(lia) ltac:(lia)). lia.
    - cbn [Fexp]. unfold bottom. lia.
  Qed.
  Lemma biggest_pos : (0 < biggest)%R.
  Proof. destruct U. unfold biggest. assert (bpow radix2 (top f - bits f) < bpow radix2 (top f))%R by (apply bpow_lt; lia). lra. Qed.
  Lemma below_biggest x : generic_format radix2 fexp x -> (x < bpow radix2 (top f))%R -> (x <= biggest)%R.
  Proof.
    intros F L. destruct U. apply Rnot_lt_le. intros G. pose proof biggest_pos as P. assert (S := succ_le_lt radix2 fexp biggest x biggest_format F G).
    rewrite succ_eq_pos in S by lra. rewrite ulp_neq_0 in S by lra. unfold cexp in S. rewrite mag_biggest in S. unfold fexp, FLT_exp in S. replace (Z.max (top f - bits f) (bottom f)) with (top f - bits f) in S by (unfold bottom; lia).
    unfold biggest in S. lra.
  Qed.
  Lemma below_threshold v : (v < overflow_threshold f)%R -> (rnd2 f v < bpow radix2 (top f))%R.
  Proof.
    intros L. pose proof biggest_pos as P. destruct U. apply Rle_lt_trans with biggest; [|unfold biggest; pose proof (bpow_gt_0 radix2 (top f - bits f)); lra].
    apply round_N_le_midp; [typeclasses eauto|apply biggest_format|]. rewrite succ_eq_pos by lra. rewrite ulp_neq_0 by lra. unfold cexp. rewrite mag_biggest. fold fexp. unfold fexp, FLT_exp. replace (Z.max (top f - bits f) (bottom f)) with (top f - bits f) by (unfold bottom; lia).
    rewrite threshold_eq in L. unfold biggest. replace (top f - bits f) with (1 + (top f - bits f - 1)) by lia. rewrite (bpow_plus radix2 1). change (bpow radix2 1) with 2%R. lra.
  Qed.
  Lemma from_threshold v : (overflow_threshold f <= v)%R -> (bpow radix2 (top f) <= rnd2 f v)%R.
  Proof.
    intros L. destruct U. apply Rle_trans with (rnd2 f (overflow_threshold f)); [|apply round_le; [apply fexp_valid|apply valid_rnd_N|exact L]].
    rewrite threshold_eq. set (t := (_ - _)%R). assert (H2 : bpow radix2 (top f - bits f) = (2 * bpow radix2 (top f - bits f - 1))%R) by (replace (top f - bits f) with (1 + (top f - bits f - 1)) at 1 by lia; rewrite (bpow_plus radix2 1); reflexivity).
    pose proof (bpow_gt_0 radix2 (top f - bits f - 1)) as P.
    assert (Mt : (mag radix2 t : Z) = top f).
    { apply mag_unique_pos. unfold t. split; [|lra]. replace (top f) with (1 + (top f - 1)) at 2 by lia. rewrite (bpow_plus radix2 1). change (bpow radix2 1) with 2%R. assert (bpow radix2 (top f - bits f - 1) <= bpow radix2 (top f - 1))%R by (apply bpow_le; lia). lra. }
    unfold rnd2, round, scaled_mantissa, cexp. rewrite Mt. unfold FLT_exp. replace (Z.max (top f - bits f) (bottom f)) with (top f - bits f) by (unfold bottom; lia).
    assert (S : (t * bpow radix2 (- (top f - bits f)) = IZR (2 ^ bits f - 1) + / 2)%R).
    { unfold t. rewrite Rmult_minus_distr_r, <- !bpow_plus. replace (top f + - (top f - bits f)) with (bits f) by lia. replace (top f - bits f - 1 + - (top f - bits f)) with (-1) by lia. rewrite minus_IZR. replace (IZR (2 ^ bits f)) with (bpow radix2 (bits f)) by (rewrite <- IZR_Zpower by lia; reflexivity). change (bpow radix2 (-1)) with (/ 2)%R. lra. }
    rewrite S. assert (F : Zfloor (IZR (2 ^ bits f - 1) + / 2) = 2 ^ bits f - 1) by (apply Zfloor_imp; rewrite plus_IZR; lra).
    unfold Znearest. rewrite F. replace (IZR (2 ^ bits f - 1) + / 2 - IZR (2 ^ bits f - 1))%R with (/ 2)%R by ring. rewrite Rcompare_Eq by reflexivity.
    assert (O : Z.even (2 ^ bits f - 1) = false) by (rewrite Z.even_sub, Z.even_pow by lia; reflexivity). rewrite O. cbn [negb].
    assert (C : Zceil (IZR (2 ^ bits f - 1) + / 2) = 2 ^ bits f) by (apply Zceil_imp; rewrite minus_IZR; lra). rewrite C. unfold F2R. cbn [Fnum Fexp]. change 2 with (radix_val radix2). rewrite IZR_Zpower by lia. rewrite <- bpow_plus. apply bpow_le. lia.
  Qed.

  Lemma nearest_ok v y : (0 <= v)%R -> of_format f y -> ((rnd2 f v < bpow radix2 (top f))%R /\ finite y /\ Rabs (value y) = rnd2 f v \/ (bpow radix2 (top f) <= rnd2 f v)%R /\ y = S754_infinity (negative y)) -> nearest f v y.
  Proof.
    intros V Y H. split; [exact Y|]. destruct (Rlt_dec v (overflow_threshold f)) as [L|L].
    - apply below_threshold in L. destruct H as [(_ & F & E)|(G & _)]; [|lra]. split; [exact F|]. intros z Z1 Z2. rewrite E.
      assert (G := abs_format z Z1). assert (NE := round_NE_pt radix2 fexp v). destruct NE as [NP NE]. fold (rnd2 f v) in NP, NE.
      split; [apply NP; exact G|]. intros T. destruct NE as [(g & G1 & G2 & G3)|NE].
      + right. destruct y as [s|s| |s m e]; try exact I. rewrite abs_value in E. assert (C : canonical radix2 fexp (Float radix2 (Zpos m) e)).
        { unfold of_format, valid_binary, bounded in Y. apply andb_prop in Y. apply (canonical_canonical_mantissa (bits f) (top f) false m e). apply Y. }
        assert (Q := canonical_unique _ _ _ _ C G2 (eq_trans E G1)). subst g. exact G3.
      + left. apply NE. split; [exact G|]. intros g Hg. rewrite <- T. apply NP. exact Hg.
    - apply Rnot_lt_le, from_threshold in L. destruct H as [(G & _)|(_ & E)]; [lra|exact E].
  Qed.
  (** a decimal number *)
  Lemma round_scaled_ok neg v (b : radix) q : 0 <= v -> let y := round_scaled f neg v b q in let r := rnd2 f (IZR v * bpow b q) in
    of_format f y /\ negative y = neg /\
    ((r < bpow radix2 (top f))%R /\ finite y /\ value y = (if neg then - r else r)%R \/ (bpow radix2 (top f) <= r)%R /\ y = S754_infinity neg).
  Proof.
    intros V. cbn zeta. unfold round_scaled. destruct (Z.eqb_spec v 0) as [->|Z0].
    - rewrite Rmult_0_l. unfold rnd2. rewrite round_0 by apply valid_rnd_N. split; [reflexivity|]. split; [reflexivity|]. left. split; [apply bpow_gt_0|]. split; [exact I|]. cbn. destruct neg; lra.
    - destruct (Z.leb_spec 0 q) as [Q|Q].
      + replace (IZR v * bpow b q)%R with (IZR (v * b ^ q) / 1)%R by (rewrite mult_IZR, IZR_Zpower by exact Q; field). apply round_fraction_ok; [|lia]. pose proof (Zpower_gt_0 b q Q). lia.
      + replace (IZR v * bpow b q)%R with (IZR v / IZR (b ^ (- q)))%R; [apply round_fraction_ok; [lia|apply Zpower_gt_0; lia]|]. rewrite IZR_Zpower by lia. rewrite bpow_opp. unfold Rdiv. rewrite Rinv_inv. reflexivity.
  Qed.
End Binary.

(** ** rounding to six decimal digits *)
Definition rnd10 (v : R) : R := round radix10 (FLX_exp 6) ZnearestE v.
Local Instance six_pos : Prec_gt_0 6 := eq_refl.
Lemma valid10 : Valid_exp (FLX_exp 6). Proof. apply FLX_exp_valid, six_pos. Qed.
Lemma six_ok n d : 0 < n -> 0 < d -> 10 ^ 5 <= fst (six n d) < 10 ^ 6 /\ rnd10 (IZR n / IZR d) = (IZR (fst (six n d)) * bpow radix10 (snd (six n d) - 5))%R.
Proof.
  intros N D. assert (V := fraction_pos n d N D). unfold six. set (l := log10_fraction n d). set (k := round_div _ _).
  assert (R : rnd10 (IZR n / IZR d) = (IZR k * bpow radix10 (l - 5))%R).
  { apply (round_scaled_nearest radix10 (FLX_exp 6)); [assumption|assumption|]. rewrite mag10 by assumption. fold l. unfold FLX_exp. lia. }
  destruct (log10_bounds n d N D) as [B1 B2]. fold l in B1, B2.
  assert (K : k = ZnearestE (IZR n / IZR d * bpow radix10 (- (l - 5)))) by (unfold k; change 10 with (radix_val radix10); rewrite round_div_nearest by (apply scale_den_pos; exact D); rewrite scaled by exact D; reflexivity).
  assert (K1 : 10 ^ 5 <= k).
  { rewrite K. rewrite <- (nearest_Z (10 ^ 5)). apply Zrnd_le; [apply valid_rnd_N|]. change 10 with (radix_val radix10). rewrite IZR_Zpower by lia.
    apply Rle_trans with (bpow radix10 l * bpow radix10 (- (l - 5)))%R; [rewrite <- bpow_plus; apply bpow_le; lia|]. apply Rmult_le_compat_r; [apply bpow_ge_0|lra]. }
  assert (K2 : k <= 10 ^ 6).
  { rewrite K. rewrite <- (nearest_Z (10 ^ 6)). apply Zrnd_le; [apply valid_rnd_N|]. change 10 with (radix_val radix10). rewrite IZR_Zpower by lia.
    apply Rle_trans with (bpow radix10 (l + 1) * bpow radix10 (- (l - 5)))%R; [apply Rmult_le_compat_r; [apply bpow_ge_0|lra]|rewrite <- bpow_plus; apply bpow_le; lia]. }
  destruct (Z.eqb_spec k (10 ^ 6)) as [T|T]; cbn [fst snd].
  - split; [lia|]. rewrite R, T. change 10 with (radix_val radix10). rewrite !IZR_Zpower by lia. rewrite <- !bpow_plus. f_equal. lia.
  - split; [lia|exact R].
Qed.
Lemma six_format d : six_digits d <-> generic_format radix10 (FLX_exp 6) d.
Proof.
  split.
  - intros (k & q & K & ->). apply generic_format_FLX. exists (Float radix10 k q); [unfold F2R; cbn; rewrite p10; reflexivity|exact K].
  - intros H. apply FLX_format_generic in H; [|exact six_pos]. destruct H as [[k q] -> K]. exists k, q. split; [exact K|]. unfold F2R. cbn. rewrite p10. reflexivity.
Qed.
Lemma rnd10_nearest v : v <> 0%R -> nearest_six v (rnd10 v).
Proof.
  intros V. assert (VE := valid10). assert (EN : Exists_NE radix10 (FLX_exp 6)) by (apply exists_NE_FLX; right; reflexivity).
  destruct (round_NE_pt radix10 (FLX_exp 6) v) as [NP NE]. fold (rnd10 v) in NP, NE. split; [apply six_format, NP|].
  intros d' D. apply six_format in D. split; [apply NP; exact D|]. intros T. destruct NE as [([k q] & G1 & G2 & G3)|NE].
  - right. cbn [Fnum] in G3. destruct (Zeven_ex k) as [j J]; rewrite G3, Z.add_0_r in J; subst k. exists j, q. rewrite G1. split; [|unfold F2R; cbn [Fnum Fexp]; rewrite p10; reflexivity].
    assert (NZ : 2 * j <> 0).
    { intros Z0. rewrite Z0, F2R_0 in G1. apply eq_0_round_0_FLX in G1; [contradiction|exact six_pos|apply valid_rnd_N]. }
    unfold canonical, cexp in G2. cbn [Fexp] in G2. rewrite mag_F2R_Zdigits in G2 by exact NZ. unfold FLX_exp in G2. assert (Dg : Zdigits radix10 (2 * j) = 6) by lia.
    pose proof (Zdigits_correct radix10 (2 * j)) as Q. rewrite Dg in Q. exact Q.
  - left. apply NE. split; [exact D|]. intros g Hg. rewrite <- T. apply NP. exact Hg.
Qed.
Lemma rnd10_opp v : rnd10 (- v) = (- rnd10 v)%R.
Proof. apply round_NE_opp. Qed.
Lemma rnd10_le a b : (a <= b)%R -> (rnd10 a <= rnd10 b)%R.
Proof. intros H. apply round_le; [apply valid10|apply valid_rnd_N|exact H]. Qed.
Lemma rnd2_le f a b : usable f -> (a <= b)%R -> (rnd2 f a <= rnd2 f b)%R.
Proof. intros U H. apply round_le; [apply fexp_valid; exact U|apply valid_rnd_N|exact H]. Qed.
Lemma rnd2_opp f v : rnd2 f (- v) = (- rnd2 f v)%R.
Proof. apply round_NE_opp. Qed.
