(** Proofs about variances and covariances in floating point. *)
From Coq Require Import List Arith Bool ZArith Reals Lra Lia ZifyBool SpecFloat.
From Flocq Require Import Core IEEE754.BinarySingleNaN.
From Verif Require Import Base DblSpec MomSpec DblModel VecModel MomModel DblProofs MomProofs.
Import ListNotations.
Local Open Scope R_scope.

Section Numbers.
  Context (prec emax : Z) (Hp : Prec_gt_0 prec) (He : Prec_lt_emax prec emax) (H3 : (3 <= prec)%Z).
  Notation num := (binary_float prec emax).
  Notation add := (DblModel.add prec emax Hp He).
  Notation sub := (DblModel.sub prec emax Hp He).
  Notation mul := (DblModel.mul prec emax Hp He).
  Notation div := (DblModel.div prec emax Hp He).
  Notation const := (DblModel.const prec emax Hp He).
  Notation rnd := (DblProofs.rnd prec emax).
  Notation u := (DblProofs.u prec).
  Notation eta := (DblProofs.eta prec emax).
  Notation limit := (DblProofs.limit emax).
  Notation accumulate := (MomModel.accumulate prec emax Hp He).
  Notation average := (MomModel.average prec emax Hp He).
  Notation count := (MomModel.count prec emax Hp He).
  Lemma sum_real {A} (f : A -> num) l : sum (map f l) = real_sum (map (fun v => B2R (f v)) l).
  Proof. rewrite sum_total. apply total_real. Qed.
  Lemma sum_abs_real {A} (f : A -> num) l : sum_abs (map f l) = real_sum (map (fun v => Rabs (B2R (f v))) l).
  Proof. rewrite sum_weight. apply weight_real. Qed.
  Lemma squares_fit : bpow radix2 (emax / 2 - 2) <= limit /\ bpow radix2 (emax / 2 - 2) * bpow radix2 (emax / 2 - 2) <= bpow radix2 (emax - 4) /\ bpow radix2 (emax / 2 - 4) <= bpow radix2 (emax - 3) /\ 13 / 4 * bpow radix2 (emax / 2 - 4) + bpow radix2 (1 - emax) <= bpow radix2 (emax / 2 - 2).
  Proof.
    pose proof (He : (prec < emax)%Z) as E. assert (E2 : (2 * (emax / 2) <= emax)%Z) by (apply Z.mul_div_le; lia). assert (E3 : (2 <= emax / 2)%Z) by (apply Z.div_le_lower_bound; lia).
    split; [apply bpow_le; lia|]. split; [rewrite <- bpow_plus; apply bpow_le; lia|]. split; [apply bpow_le; lia|].
    replace (bpow radix2 (emax / 2 - 2)) with (4 * bpow radix2 (emax / 2 - 4)) by (change 4 with (bpow radix2 2); rewrite <- bpow_plus; f_equal; lia).
    assert (bpow radix2 (1 - emax) <= / 2 * bpow radix2 (emax / 2 - 4)); [|pose proof (bpow_gt_0 radix2 (emax / 2 - 4)); lra]. change (/ 2) with (bpow radix2 (-1)). rewrite <- bpow_plus. apply bpow_le. lia.
  Qed.
  (** the mean of numbers, and their distances to it *)
  Lemma mean_ok {A} (f : A -> num) (l : list A) : l <> [] -> few prec l -> squarable (map f l) -> exists m, average (map f l) (const 0 0) = Ok m /\ is_finite m = true /\ Rabs (B2R m - mean (map f l)) <= mean_error (map f l) /\
    real_sum (map (fun v => Rabs (B2R (f v) - B2R m)) l) <= bpow radix2 (emax / 2 - 2).
  Proof.
    intros NE N [F Q]. destruct (const_0 prec emax Hp He H3) as [Z FZ]. destruct squares_fit as (S1 & S2 & S3 & S4).
    destruct (average_ok prec emax Hp He H3 (map f l) (const 0 0)) as (m & M1 & M2 & M3); [destruct l; [contradiction|discriminate]|exact FZ|exact F|rewrite Z, Rabs_R0, Rplus_0_l, <- sum_weight; lra|unfold few; rewrite map_length; exact N|].
    rewrite Z, Rabs_R0, !Rplus_0_l, <- sum_total, <- sum_weight in M3. exists m. split; [exact M1|]. split; [exact M2|]. split; [exact M3|].
    rewrite map_length in M3. pose proof (few_u prec H3 l N) as NU. pose proof (few_eta prec emax H3 l N) as NE0. destruct (inverse_count l NE) as [N1 I]. set (n := INR (length l)) in *. set (X := sum_abs (map f l)) in *.
    assert (X0 : 0 <= X) by (unfold X; rewrite sum_weight; apply weight_pos). pose proof (u_pos prec H3) as U.
    assert (MB : Rabs (sum (map f l) / n) <= X / n). { unfold Rdiv. rewrite Rabs_mult, (Rabs_pos_eq (/ n)) by lra. apply Rmult_le_compat_r; [lra|]. unfold X. rewrite sum_weight, sum_total. apply weight_total. }
    assert (NM : n * Rabs (B2R m) <= X + (2 * n * u + 2 * u) * X + n * eta).
    { assert (Rabs (B2R m) <= X / n + (2 * n + 2) * u * (X / n) + eta) by (eapply Rle_trans; [apply (abs_tri _ (sum (map f l) / n))|]; lra). apply Rle_trans with (n * (X / n + (2 * n + 2) * u * (X / n) + eta)); [apply Rmult_le_compat_l; lra|]. apply Req_le. field. lra. }
    assert (SU : real_sum (map (fun v => Rabs (B2R (f v) - B2R m)) l) <= X + n * Rabs (B2R m)).
    { unfold X. rewrite sum_abs_real. unfold n. rewrite <- (real_sum_const (Rabs (B2R m)) l), <- real_sum_plus. apply real_sum_le. intros v _. unfold Rminus. eapply Rle_trans; [apply Rabs_triang|]. rewrite Rabs_Ropp. lra. }
    assert ((2 * n * u + 2 * u) * X <= 5 / 4 * X) by (apply Rmult_le_compat_r; lra). eapply Rle_trans; [exact SU|]. lra.
  Qed.
  Lemma from_mean {A} (f : A -> num) (l : list A) : l <> [] -> real_sum (map (fun v => B2R (f v) - mean (map f l)) l) = 0.
  Proof.
    intros NE. destruct (inverse_count l NE) as [N1 I]. unfold Rminus. rewrite real_sum_plus, real_sum_const. unfold mean. rewrite sum_real, map_length. field. lra.
  Qed.
  (** around other points than the means *)
  Lemma around {A} (f g : A -> num) (l : list A) a b : l <> [] ->
    real_sum (map (fun v => (B2R (f v) - a) * (B2R (g v) - b)) l) / INR (length l) = real_sum (map (fun v => (B2R (f v) - mean (map f l)) * (B2R (g v) - mean (map g l))) l) / INR (length l) + (mean (map f l) - a) * (mean (map g l) - b).
  Proof.
    intros NE. destruct (inverse_count l NE) as [N1 I]. pose proof (from_mean f l NE) as F0. pose proof (from_mean g l NE) as G0. set (p := mean (map f l)) in *. set (q := mean (map g l)) in *.
    rewrite (real_sum_ext _ (fun v => (((B2R (f v) - p) * (B2R (g v) - q) + (q - b) * (B2R (f v) - p)) + (p - a) * (B2R (g v) - q)) + (p - a) * (q - b))) by (intros v _; ring).
    rewrite !real_sum_plus, !real_sum_mult, real_sum_const, F0, G0. field. lra.
  Qed.
  Lemma covariance_real {A} (f g : A -> num) (l : list A) : covariance (map f l) (map g l) = real_sum (map (fun v => (B2R (f v) - mean (map f l)) * (B2R (g v) - mean (map g l))) l) / INR (length l).
  Proof.
    unfold covariance. rewrite map_length. f_equal. set (p := mean (map f l)). set (q := mean (map g l)). clearbody p q. unfold real_sum. induction l as [|v l IH]; cbn [map combine fold_right]; [reflexivity|]. rewrite IH. reflexivity.
  Qed.
  Lemma joint_real {A} (f g : A -> num) (l : list A) ex ey : joint_spread (map f l) (map g l) ex ey = real_sum (map (fun v => (Rabs (B2R (f v) - mean (map f l)) + ex) * (Rabs (B2R (g v) - mean (map g l)) + ey)) l) / INR (length l).
  Proof.
    unfold joint_spread. rewrite map_length. f_equal. set (p := mean (map f l)). set (q := mean (map g l)). clearbody p q. unfold real_sum. induction l as [|v l IH]; cbn [map combine fold_right]; [reflexivity|]. rewrite IH. reflexivity.
  Qed.
  Definition products {A} (f g : A -> num) (mx my : num) (l : list A) : num := div (fold_left (fun acc v => add acc (mul (sub (f v) mx) (sub (g v) my))) l (const 0 0)) (count (length l)).
  Lemma products_ok {A} (f g : A -> num) (l : list A) mx my : l <> [] -> few prec l -> squarable (map f l) -> squarable (map g l) -> average (map f l) (const 0 0) = Ok mx -> average (map g l) (const 0 0) = Ok my ->
    let c := products f g mx my l in let ex := B2R mx - mean (map f l) in let ey := B2R my - mean (map g l) in
    is_finite c = true /\ Rabs ex <= mean_error (map f l) /\ Rabs ey <= mean_error (map g l) /\
    Rabs (B2R c - (covariance (map f l) (map g l) + ex * ey)) <= (3 * INR (length l) + 7) * u * (real_sum (map (fun v => Rabs (B2R (f v) - B2R mx) * Rabs (B2R (g v) - B2R my)) l) / INR (length l)) + 4 * eta.
  Proof.
    intros NE N Q1 Q2 E1 E2 c ex ey. destruct (mean_ok f l NE N Q1) as (mx' & X1 & X2 & X3 & X4). rewrite E1 in X1. injection X1 as <-. destruct (mean_ok g l NE N Q2) as (my' & Y1 & Y2 & Y3 & Y4). rewrite E2 in Y1. injection Y1 as <-.
    destruct squares_fit as (S1 & S2 & S3 & S4). pose proof (bpow_gt_0 radix2 (emax / 2 - 2)) as B0.
    destruct (deviations prec emax Hp He H3 f g mx my l NE N) as [FC EC].
    - intros v I. split; [apply (proj1 (Forall_forall _ _) (proj1 Q1)), in_map, I|apply (proj1 (Forall_forall _ _) (proj1 Q2)), in_map, I].
    - exact X2.
    - exact Y2.
    - intros v I. split; (eapply Rle_trans; [|exact S1]).
      + eapply Rle_trans; [apply (real_sum_in (fun v => Rabs (B2R (f v) - B2R mx)) l v); [intros; apply Rabs_pos|exact I]|exact X4].
      + eapply Rle_trans; [apply (real_sum_in (fun v => Rabs (B2R (g v) - B2R my)) l v); [intros; apply Rabs_pos|exact I]|exact Y4].
    - eapply Rle_trans; [apply (real_sum_product (fun v => Rabs (B2R (f v) - B2R mx)) (fun v => Rabs (B2R (g v) - B2R my))); intros v _; split; apply Rabs_pos|]. eapply Rle_trans; [|exact S2]. apply Rmult_le_compat; try assumption; apply real_sum_nonneg; intros; apply Rabs_pos.
    - split; [exact FC|]. split; [exact X3|]. split; [exact Y3|]. rewrite (around f g l _ _ NE), <- covariance_real in EC. replace (ex * ey) with ((mean (map f l) - B2R mx) * (mean (map g l) - B2R my)) by (unfold ex, ey; ring). exact EC.
  Qed.
  Lemma covariance_ok {A} (f g : A -> num) (l : list A) mx my : l <> [] -> few prec l -> squarable (map f l) -> squarable (map g l) -> average (map f l) (const 0 0) = Ok mx -> average (map g l) (const 0 0) = Ok my ->
    let c := products f g mx my l in let ex := mean_error (map f l) in let ey := mean_error (map g l) in
    is_finite c = true /\ Rabs (B2R c - covariance (map f l) (map g l)) <= (3 * INR (length l) + 7) * u * joint_spread (map f l) (map g l) ex ey + ex * ey + 4 * eta.
  Proof.
    intros NE N Q1 Q2 E1 E2. destruct (products_ok f g l mx my NE N Q1 Q2 E1 E2) as (FC & X & Y & E). cbv zeta. split; [exact FC|]. set (ex := B2R mx - mean (map f l)) in *. set (ey := B2R my - mean (map g l)) in *. set (c := B2R (products f g mx my l)) in *.
    destruct (inverse_count l NE) as [N1 I]. pose proof (u_pos prec H3) as U. replace (c - covariance (map f l) (map g l)) with ((c - (covariance (map f l) (map g l) + ex * ey)) + ex * ey) by ring. eapply Rle_trans; [apply Rabs_triang|]. rewrite Rabs_mult.
    assert (Rabs ex * Rabs ey <= mean_error (map f l) * mean_error (map g l)) by (apply Rmult_le_compat; try apply Rabs_pos; assumption).
    assert (real_sum (map (fun v => Rabs (B2R (f v) - B2R mx) * Rabs (B2R (g v) - B2R my)) l) / INR (length l) <= joint_spread (map f l) (map g l) (mean_error (map f l)) (mean_error (map g l))) as J.
    { rewrite joint_real. unfold Rdiv. apply Rmult_le_compat_r; [lra|]. apply real_sum_le. intros v _. apply Rmult_le_compat; try apply Rabs_pos.
      - replace (B2R (f v) - B2R mx) with ((B2R (f v) - mean (map f l)) + - ex) by (unfold ex; ring). eapply Rle_trans; [apply Rabs_triang|]. rewrite Rabs_Ropp. lra.
      - replace (B2R (g v) - B2R my) with ((B2R (g v) - mean (map g l)) + - ey) by (unfold ey; ring). eapply Rle_trans; [apply Rabs_triang|]. rewrite Rabs_Ropp. lra. }
    assert (0 <= (3 * INR (length l) + 7) * u) by (apply Rmult_le_pos; lra). apply (Rmult_le_compat_l _ _ _ H0) in J. lra.
  Qed.
  (** numbers of which the real value is not negative (infinities and NaN have the value 0) *)
  Lemma nonneg_sf (x : num) : (is_finite x = true -> 0 <= B2R x) -> 0 <= B2R x.
  Proof. destruct x; cbn [is_finite B2R]; intros H; try apply Rle_refl. apply H. reflexivity. Qed.
  Lemma add_nonneg (a b : num) : 0 <= B2R a -> 0 <= B2R b -> 0 <= B2R (add a b).
  Proof.
    intros A B. apply nonneg_sf. intros F. destruct (is_finite a) eqn:FA; [|exfalso; destruct a as [|[]| |]; try discriminate FA; destruct b as [|[]| |]; discriminate F].
    destruct (is_finite b) eqn:FB; [|exfalso; destruct b as [|[]| |]; try discriminate FB; destruct a as [|[]| |]; discriminate F]. pose proof (Bplus_correct prec emax Hp He mode_NE a b FA FB) as G. destruct (Rlt_bool _ _) in G.
    - destruct G as [G _]. unfold DblModel.add. rewrite G. apply round_ge_generic; [apply (fexp_correct prec emax Hp)|apply valid_rnd_round_mode|apply generic_format_0|lra].
    - destruct G as [G _]. unfold DblModel.add in *. rewrite <- is_finite_SF_B2SF, G in F. discriminate F.
  Qed.
  Lemma square_nonneg (a : num) : 0 <= B2R (mul a a).
  Proof.
    apply nonneg_sf. intros F. pose proof (Bmult_correct prec emax Hp He mode_NE a a) as G. cbv zeta in G. destruct (Rlt_bool _ _) in G.
    - destruct G as [G _]. unfold DblModel.mul. rewrite G. apply round_ge_generic; [apply (fexp_correct prec emax Hp)|apply valid_rnd_round_mode|apply generic_format_0|apply Rle_0_sqr].
    - unfold DblModel.mul in *. rewrite <- is_finite_SF_B2SF, G in F. discriminate F.
  Qed.
  Lemma div_nonneg (a b : num) : 0 <= B2R a -> 0 <= B2R b -> 0 <= B2R (div a b).
  Proof.
    intros A B. apply nonneg_sf. intros F. destruct (Req_dec (B2R b) 0) as [Z|NZ].
    - unfold DblModel.div in *. destruct b as [| | |s m e Hb]; [destruct a; try discriminate F; apply Rle_refl|destruct a; try discriminate F; apply Rle_refl|destruct a; discriminate F|]. exfalso. apply (F2R_neq_0 radix2 (Float radix2 (cond_Zopp s (Zpos m)) e)) in Z; [exact Z|]. destruct s; discriminate.
    - pose proof (Bdiv_correct prec emax Hp He mode_NE a b NZ) as G. cbv zeta in G. destruct (Rlt_bool _ _) in G.
      + destruct G as [G _]. unfold DblModel.div. rewrite G. apply round_ge_generic; [apply (fexp_correct prec emax Hp)|apply valid_rnd_round_mode|apply generic_format_0|]. unfold Rdiv. apply Rmult_le_pos; [exact A|]. apply Rlt_le, Rinv_0_lt_compat. lra.
      + unfold DblModel.div in *. rewrite <- is_finite_SF_B2SF, G in F. discriminate F.
  Qed.
  Lemma count_nonneg n : 0 <= B2R (count n).
  Proof.
    apply nonneg_sf. intros F. unfold MomModel.count, DblModel.const in *. pose proof (binary_normalize_correct prec emax Hp He mode_NE (Z.of_nat n) 0 false) as G. cbv zeta in G. destruct (Rlt_bool _ _) in G.
    - destruct G as [G _]. rewrite G. apply round_ge_generic; [apply (fexp_correct prec emax Hp)|apply valid_rnd_round_mode|apply generic_format_0|]. apply F2R_ge_0. cbn. lia.
    - rewrite <- is_finite_SF_B2SF, G in F. discriminate F.
  Qed.
  Lemma products_nonneg {A} (f : A -> num) m (l : list A) : 0 <= B2R (products f f m m l).
  Proof.
    unfold products. apply div_nonneg; [|apply count_nonneg]. assert (Z : 0 <= B2R (const 0 0)) by (rewrite (proj1 (const_0 prec emax Hp He H3)); lra). revert Z. generalize (const 0 0). induction l as [|v l IH]; intros k K; cbn [fold_left]; [exact K|]. apply IH, add_nonneg; [exact K|apply square_nonneg].
  Qed.
  (** signs, of whatever numbers *)
  Lemma sign_sf (x : num) s : B2SF x = S754_infinity s -> Bsign x = s.
  Proof. destruct x; cbn; congruence. Qed.
  Lemma sign_nonneg (x : num) : Bsign x = false -> 0 <= B2R x.
  Proof. destruct x as [| | |s m e Hb]; cbn [Bsign B2R]; intros S; try apply Rle_refl. rewrite S. apply F2R_ge_0. cbn. lia. Qed.
  Lemma add_sign (a b : num) : Bsign a = false -> Bsign b = false -> Bsign (add a b) = false.
  Proof.
    intros A B. destruct (is_finite a) eqn:FA; [|destruct a as [|[]| |]; try discriminate FA; try discriminate A; destruct b as [|[]| |]; try discriminate B; reflexivity].
    destruct (is_finite b) eqn:FB; [|destruct b as [|[]| |]; try discriminate FB; try discriminate B; destruct a as [|[]| |]; try discriminate A; reflexivity]. pose proof (Bplus_correct prec emax Hp He mode_NE a b FA FB) as G. pose proof (sign_nonneg a A) as PA. pose proof (sign_nonneg b B) as PB. unfold DblModel.add. destruct (Rlt_bool _ _) in G.
    - destruct G as (_ & _ & G). rewrite G. destruct (Rcompare_spec (B2R a + B2R b) 0); [lra|rewrite A; reflexivity|reflexivity].
    - destruct G as [G _]. rewrite A in G. apply sign_sf, G.
  Qed.
  Lemma square_sign (a : num) : Bsign (mul a a) = false.
  Proof.
    pose proof (Bmult_correct prec emax Hp He mode_NE a a) as G. cbv zeta in G. unfold DblModel.mul. destruct (Rlt_bool _ _) in G.
    - destruct G as (_ & _ & G). destruct (is_nan (Bmult mode_NE a a)) eqn:N; [destruct (Bmult mode_NE a a); try discriminate N; reflexivity|]. rewrite (G eq_refl). apply xorb_nilpotent.
    - rewrite xorb_nilpotent in G. apply sign_sf, G.
  Qed.
  Lemma div_sign (a b : num) : Bsign a = false -> Bsign b = false -> Bsign (div a b) = false.
  Proof.
    intros A B. unfold DblModel.div. destruct (Req_dec (B2R b) 0) as [Z|NZ].
    - destruct b as [sb|sb| |sb m e Hb]; cbn in B; try subst sb; [destruct a as [[]|[]| |[]]; try discriminate A; reflexivity|destruct a as [[]|[]| |[]]; try discriminate A; reflexivity|destruct a; reflexivity|]. exfalso. apply (F2R_neq_0 radix2 (Float radix2 (cond_Zopp false (Zpos m)) e)) in Z; [exact Z|discriminate].
    - pose proof (Bdiv_correct prec emax Hp He mode_NE a b NZ) as G. cbv zeta in G. destruct (Rlt_bool _ _) in G.
      + destruct G as (_ & _ & G). destruct (is_nan (Bdiv mode_NE a b)) eqn:N; [destruct (Bdiv mode_NE a b); try discriminate N; reflexivity|]. rewrite (G eq_refl), A, B. reflexivity.
      + rewrite A, B in G. apply sign_sf, G.
  Qed.
  Lemma count_sign n : Bsign (count n) = false.
  Proof.
    unfold MomModel.count, DblModel.const. pose proof (binary_normalize_correct prec emax Hp He mode_NE (Z.of_nat n) 0 false) as G. cbv zeta in G. assert (P : 0 <= F2R (Float radix2 (Z.of_nat n) 0)) by (apply F2R_ge_0; cbn; lia). destruct (Rlt_bool _ _) in G.
    - destruct G as (_ & _ & G). rewrite G. destruct (Rcompare_spec (F2R (Float radix2 (Z.of_nat n) 0)) 0); [lra|reflexivity|reflexivity].
    - rewrite Rlt_bool_false in G by exact P. apply sign_sf, G.
  Qed.
  Lemma products_sign {A} (f : A -> num) m (l : list A) : Bsign (products f f m m l) = false.
  Proof.
    unfold products. apply div_sign; [|apply count_sign]. assert (Z : Bsign (const 0 0) = false) by reflexivity. revert Z. generalize (const 0 0). induction l as [|v l IH]; intros k K; cbn [fold_left]; [exact K|]. apply IH, add_sign; [exact K|apply square_sign].
  Qed.
  Lemma sign_lt (x : num) : Bsign x = false -> lt prec emax x (const 0 0) = false.
  Proof. intros S. unfold lt, Bltb, SFltb. change (B2SF (const 0 0)) with (S754_zero false). destruct x as [|s| |s]; cbn in *; try subst s; reflexivity. Qed.
  Lemma variance_real {A} (f : A -> num) (l : list A) : variance (map f l) = covariance (map f l) (map f l).
  Proof. rewrite covariance_real. unfold variance. rewrite map_length, map_map. f_equal. apply real_sum_ext. intros v _. ring. Qed.
  Lemma variance_ok {A} (f : A -> num) (l : list A) m : l <> [] -> few prec l -> squarable (map f l) -> average (map f l) (const 0 0) = Ok m ->
    let c := products f f m m l in let ex := mean_error (map f l) in
    is_finite c = true /\ 0 <= B2R c /\ Rabs (B2R c - variance (map f l)) <= (3 * INR (length l) + 7) * u * variance (map f l) + 4 * (ex * ex) + 4 * eta.
  Proof.
    intros NE N Q E1. destruct (products_ok f f l m m NE N Q Q E1 E1) as (FC & X & _ & E). cbv zeta. split; [exact FC|]. destruct (inverse_count l NE) as [N1 I]. pose proof (u_pos prec H3) as U. pose proof (few_u prec H3 l N) as NU. rewrite variance_real.
    set (ex := B2R m - mean (map f l)) in *. set (V := covariance (map f l) (map f l)) in *.
    assert (P : real_sum (map (fun v => Rabs (B2R (f v) - B2R m) * Rabs (B2R (f v) - B2R m)) l) / INR (length l) = V + ex * ex).
    { rewrite (real_sum_ext _ (fun v => (B2R (f v) - B2R m) * (B2R (f v) - B2R m))) by (intros v _; rewrite <- Rabs_mult; apply Rabs_pos_eq; apply Rle_0_sqr). rewrite (around f f l _ _ NE), <- covariance_real. fold V. unfold ex. ring. }
    rewrite P in E. assert (EX : ex * ex <= mean_error (map f l) * mean_error (map f l)). { replace (ex * ex) with (Rabs ex * Rabs ex) by (rewrite <- Rabs_mult; apply Rabs_pos_eq, Rle_0_sqr). apply Rmult_le_compat; try apply Rabs_pos; assumption. }
    pose proof (Rle_0_sqr ex) as E0. unfold Rsqr in E0. split.
    - apply products_nonneg.
    - assert (V0 : 0 <= V). { unfold V. rewrite <- variance_real. unfold variance, Rdiv. rewrite map_length. apply Rmult_le_pos; [|lra]. apply real_sum_nonneg. intros v _. apply pow2_ge_0. }
      set (k := (3 * INR (length l) + 7) * u) in *. assert (K : 0 <= k <= 3) by (unfold k; split; [apply Rmult_le_pos; lra|lra]). set (c := B2R (products f f m m l)) in *. replace (c - V) with ((c - (V + ex * ex)) + ex * ex) by ring. eapply Rle_trans; [apply Rabs_triang|]. rewrite (Rabs_pos_eq (ex * ex)) by exact E0.
      assert (k * (ex * ex) <= 3 * (ex * ex)) by (apply Rmult_le_compat_r; lra). lra.
  Qed.
End Numbers.
